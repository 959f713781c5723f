(** * TriggerModel: popIdentifierToken (ddl/fmt.go), populateTriggerInfo
    (ddl/trigger.go), populateFunctionInfo (ddl/function.go), FilesToFunctions and
    T.Trigger (ddl/t.go) *)
From Verif Require Import GoBase QuoteModel CacheModel TokenModel DdlModel MigrateModel.

(** ** Identifiers *)
(** fmt.go:122-126: the characters that open a quoted identifier, with the
    character that closes it (102-119).  The case '\'' of 103 is unreachable. *)
Definition opens (d : dialect) (r : rune) : option ascii :=
  if (r =? ord """")%N then Some """"%char
  else if (r =? R "`")%N && is_mysql d then Some "`"%char
  else if (r =? R "[")%N && is_sqlserver d then Some "]"%char
  else None.
(** The loop fmt.go:97-131.  [quote] is the closing character if we are inside a
    quoted identifier, [at] the position of [suf], [split] is splitAt.  Each
    round advances by at least one byte: [length suf] rounds suffice. *)
Fixpoint ident_loop (fuel : nat) (d : dialect) (quote : option ascii) (at_ split : nat) (suf : bytes) : nat :=
  match fuel, suf with
  | 0, _ | _, [] => split
  | S f, _ =>
    let (r, size) := decode_rune suf in
    let i := at_ + size in
    let rest := skipn size suf in
    match quote with
    | Some q =>
      if (r =? ord q)%N
      then match rest with
           | c :: rest' => if Ascii.eqb c q
                           then ident_loop f d quote (S i) i rest'      (* 105-106, 113-114 *)
                           else ident_loop f d None i i rest
           | [] => i
           end
      else ident_loop f d quote i i rest
    | None =>
      match opens d r with
      | Some q => ident_loop f d (Some q) i i rest
      | None => if is_space r then at_ else ident_loop f d None i i rest   (* 127-130 *)
      end
    end
  end.
(** fmt.go:90-133 [popIdentifierToken]: the token and the rest. *)
Definition pop_identifier (d : dialect) (s0 : bytes) : bytes * bytes :=
  let s := TokenModel.trim_left s0 in
  let split := ident_loop (length s) d None 0 0 s in
  (firstn split s, skipn split s).
(** fmt.go:135-146 [popIdentifierTokens] with a count. *)
Fixpoint pop_identifiers (d : dialect) (count : nat) (s : bytes) : list bytes * bytes :=
  match count, s with
  | 0, _ | _, [] => ([], s)
  | S n, _ =>
    let (token, rest) := pop_identifier d s in
    if is_empty token && is_empty rest then ([], rest)
    else let (tokens, rest') := pop_identifiers d n rest in (token :: tokens, rest')
  end.

(** [name[:i], name[i+1:]] at the first '.', trigger.go:59-61, function.go:43-45. *)
Definition split_dot (name : bytes) : option (bytes * bytes) :=
  match index_byte "." name with
  | Some i => Some (firstn i name, skipn (S i) name)
  | None => None
  end.

(** ** Triggers *)
Inductive trigger_state := PreTrigger | AtTrigger | PreOn | AtOn.
(** trigger.go:39-47, the IF NOT EXISTS of SQLite. *)
Definition skip_if_not_exists (d : dialect) (rest : bytes) : bytes :=
  if is_sqlite d
  then match pop_identifiers d 3 rest with
       | ([a; b; c], tmp) =>
         if equal_fold a (B "IF") && equal_fold b (B "NOT") && equal_fold c (B "EXISTS") then tmp else rest
       | _ => rest
       end
  else rest.
(** The loop trigger.go:30-64.  Result: the trigger's name, the table's schema
    and name.  Out of fuel: LDiverge. *)
Fixpoint trigger_loop (fuel : nat) (d : dialect) (state : trigger_state) (name rest : bytes)
  : lexres (bytes * bytes * bytes) :=
  match rest with
  | [] => LOk (name, [], [])
  | _ =>
    match fuel with
    | 0 => LDiverge
    | S f =>
      match state with
      | PreTrigger =>
        let (w, rest') := pop_identifier d rest in
        trigger_loop f d (if equal_fold w (B "TRIGGER") then AtTrigger else PreTrigger) name rest'
      | AtTrigger =>
        let (n, rest') := pop_identifier d (skip_if_not_exists d rest) in
        trigger_loop f d PreOn n rest'
      | PreOn =>
        let (w, rest') := pop_identifier d rest in
        trigger_loop f d (if equal_fold w (B "ON") then AtOn else PreOn) name rest'
      | AtOn =>
        let (n, _) := pop_identifier d rest in
        match split_dot n with
        | Some (s, t) => LOk (name, s, t)
        | None => LOk (name, [], n)
        end
      end
    end
  end.
(** trigger.go:20-69 [populateTriggerInfo], of Trigger{SQL: sql}. *)
Definition trigger_info (fuel : nat) (d : dialect) (sql : bytes) : lexres trigger :=
  match trigger_loop fuel d PreTrigger [] sql with
  | LOk (name, schema, table) =>
    if negb (is_empty sql) && (is_empty name || is_empty table) then LErr
    else LOk (mk_trigger schema table name sql false)
  | LErr => LErr | LPanic => LPanic | LDiverge => LDiverge
  end.

(** t.go:694-715 [T.Trigger]; [sql] is the formatted text.  An error is a panic
    (panicErr), recovered in LoadTable. *)
Definition set_triggers (ts : cached trigger) (t : table) : table :=
  mk_table (t_schema t) (t_name t) (t_columns t) (t_constraints t) (t_indexes t) ts (t_virtual t) (t_virtual_args t) (t_ignore t).
Definition g_set_sql (sql : bytes) (g : trigger) : trigger :=
  mk_trigger (g_schema g) (g_table g) (g_name g) sql (g_ignore g).
Definition t_trigger (fuel : nat) (d : dialect) (sql : bytes) (t : table) : lexres table :=
  match trigger_info fuel d (trim_space sql) with
  | LOk g =>
    if negb (is_empty (g_schema g)) && negb (beqb (g_schema g) (t_schema t)) then LErr
    else if negb (beqb (g_table g) (t_name t)) then LErr
    else
      match lookup g_name g_ignore false (g_name g) (t_triggers t) with
      | (Some n, ts) =>
        match nth_error (objects ts) n with
        | Some old => LOk (set_triggers (edit (list_set (objects ts) n (g_set_sql (g_sql g) old)) ts) t)
        | None => LPanic
        end
      | (None, ts) => LOk (set_triggers (snd (append g_name g ts)) t)
      end
  | LErr => LErr | LPanic => LPanic | LDiverge => LDiverge
  end.

(** ** Functions *)
(** function.go:22-68 [populateFunctionInfo]; [ret] is ReturnType, which [func]
    does not have.  The state FUNCTION (41-61) never continues the loop. *)
Definition function_at (d : dialect) (remainder : bytes) (f : func) (ret : bytes) : lexres (func * bytes) :=
  let (name, _) := pop_identifier d remainder in
  let (schema, name) := match split_dot name with Some p => p | None => (f_schema f, name) end in
  let name := match index_byte "(" name with Some i => firstn i name | None => name end in
  match index_byte "(" remainder, index_byte ")" remainder with
  | None, _ | _, None => LErr
  | Some i, Some j =>
    if Nat.ltb j (S i) then LPanic                                        (* remainder[i+1:j] *)
    else
      let args := trim_space (firstn (j - S i) (skipn (S i) remainder)) in
      let (token, tmp) := pop_identifier d (skipn (S j) remainder) in
      let ret := if equal_fold token (B "RETURNS") then fst (pop_identifier d tmp) else ret in
      LOk (mk_func schema name args (f_sql f) (f_ignore f), ret)
  end.
Fixpoint function_loop (fuel : nat) (d : dialect) (at_function : bool) (rest : bytes) (f : func) (ret : bytes)
  : lexres (func * bytes) :=
  match rest with
  | [] => LOk (f, ret)
  | _ =>
    match fuel with
    | 0 => LDiverge
    | S n =>
      if at_function then function_at d rest f ret
      else let (token, rest') := pop_identifier d rest in
           function_loop n d (equal_fold token (B "FUNCTION")) rest' f ret
    end
  end.
Definition function_info (fuel : nat) (d : dialect) (f : func) (ret : bytes) : lexres (func * bytes) :=
  if negb (is_postgres d) then LOk (f, ret)
  else match function_loop fuel d false (f_sql f) f ret with
       | LOk (f', ret') => if negb (is_empty (f_sql f)) && is_empty (f_name f') then LErr else LOk (f', ret')
       | r => r
       end.
(** function.go:70-85 [FilesToFunctions]; a file is what ReadFile returns ([None]:
    an error), the return types are dropped. *)
Fixpoint files_to_functions (d : dialect) (files : list (option bytes)) : lexres (list func) :=
  match files with
  | [] => LOk []
  | None :: _ => LErr
  | Some text :: files' =>
    match function_info (S (length text)) d (mk_func [] [] [] text false) [] with
    | LOk (f, _) =>
      match files_to_functions d files' with
      | LOk fs => LOk (f :: fs)
      | r => r
      end
    | LErr => LErr | LPanic => LPanic | LDiverge => LDiverge
    end
  end.
