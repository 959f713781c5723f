(** * SprintModel: Sprint, Sprintf, lookupParam (fmt.go) *)
From Verif Require Import GoBase QuoteModel.

(** Go values that may be bound as arguments.  Floats and times carry the text
    that [strconv.FormatFloat(_, 'g', -1, 64)] / [Format(time.RFC3339Nano)]
    would produce (these library functions are not modelled).
    [GValuer r] is a value whose type implements [driver.Valuer] (other than
    the [sql.Null*] types): [r] is what its [Value()] returns, [None] = error.
    [GNilPtr valuer] is a nil pointer; [valuer] says whether its element type
    implements [driver.Valuer] with a value receiver. *)
Inductive gval :=
| GNil
| GBool (b : bool)
| GBytes (bs : bytes)
| GString (s : bytes)
| GTime (text : bytes)
| GInt (z : Z)                       (* int, int8 .. int64 *)
| GUint (n : N)                      (* uint, uint8 .. uint64 *)
| GFloat (text : bytes)              (* float32, float64 *)
| GNamedArg (name : bytes) (v : gval)
| GNullBool (valid b : bool)
| GNullFloat (valid : bool) (text : bytes)
| GNullInt (valid : bool) (z : Z)    (* sql.NullInt64, sql.NullInt32 *)
| GNullString (valid : bool) (s : bytes)
| GNullTime (valid : bool) (text : bytes)
| GValuer (r : option gval)
| GPtr (v : gval)
| GNilPtr (valuer : bool)
| GChan
| GFunc
| GOther (id : bytes).               (* anything else: structs, maps, slices *)

Definition quote_str (s : bytes) : bytes := B "'" ++ escape_quote s "'" ++ B "'".
Definition show_bool (b : bool) : bytes := if b then B "TRUE" else B "FALSE".

(** fmt.go:477-496: the value returned by [driver.Valuer.Value()]. *)
Definition sprint_driver_value (vv : gval) : outcome bytes :=
  match vv with
  | GInt z => Ok (format_int z)
  | GFloat t => Ok t
  | GBool b => Ok (show_bool b)
  | GBytes bs => Ok (B "x'" ++ hex_encode bs ++ B "'")
  | GString s => Ok (quote_str s)
  | GTime t => Ok (B "'" ++ t ++ B "'")
  | _ => Err (B "unrecognized driver.Valuer type")
  end.

(** What [Value()] returns for a value whose type implements [driver.Valuer];
    [None] if it does not implement it.  The [sql.Null*] types implement it, so
    pointers to them do (database/sql: [Value] returns nil if not Valid). *)
Definition valuer_of (v : gval) : option (option gval) :=
  match v with
  | GValuer r => Some r
  | GNullBool ok b => Some (Some (if ok then GBool b else GNil))
  | GNullFloat ok t => Some (Some (if ok then GFloat t else GNil))
  | GNullInt ok z => Some (Some (if ok then GInt z else GNil))
  | GNullString ok s => Some (Some (if ok then GString s else GNil))
  | GNullTime ok t => Some (Some (if ok then GTime t else GNil))
  | _ => None
  end.

Definition sprint_valuer (r : option gval) : outcome bytes :=
  match r with
  | None => Err (B "error when calling Value()")          (* 474-476 *)
  | Some vv => sprint_driver_value vv
  end.

(** fmt.go:385-518 [Sprint].  [deref] is true while the pointer chain of
    lines 498-504 is being followed (there a pointer is dereferenced without
    looking at its methods). *)
Fixpoint sprint_at (deref : bool) (d : dialect) (v : gval) : outcome bytes :=
  match v with
  | GNil => if deref then Err (B "value is not valid") else Ok (B "NULL")
  | GBool b => Ok (show_bool b)
  | GBytes bs =>
    if is_postgres d then Ok (B "'\x" ++ hex_encode bs ++ B "'::BYTEA")
    else Ok (B "x'" ++ hex_encode bs ++ B "'")
  | GString s => Ok (quote_str s)
  | GTime t => Ok (B "'" ++ t ++ B "'")
  | GInt z => Ok (format_int z)
  | GUint n => Ok (format_uint n)
  | GFloat t => Ok t
  | GNamedArg _ v' => sprint_at false d v'
  | GNullBool ok b => if ok then Ok (show_bool b) else Ok (B "NULL")
  | GNullFloat ok t => if ok then Ok t else Ok (B "NULL")
  | GNullInt ok z => if ok then Ok (format_int z) else Ok (B "NULL")
  | GNullString ok s => if ok then Ok (quote_str s) else Ok (B "NULL")
  | GNullTime ok t => if ok then Ok (B "'" ++ t ++ B "'") else Ok (B "NULL")
  | GValuer r => sprint_valuer r
  | GPtr w =>
    match valuer_of w with
    | Some r => if deref then sprint_at true d w else sprint_valuer r   (* 472 *)
    | None => sprint_at true d w                                        (* 501-515 *)
    end
  | GNilPtr valuer =>
    if valuer && negb deref then Panic          (* method call on a nil pointer *)
    else Err (B "value is not valid")           (* 505-507 *)
  | GChan => Err (B "Go channels cannot be represented in SQL")
  | GFunc => Err (B "Go functions cannot be represented in SQL")
  | GOther _ => Err (B "could not convert into its SQL representation")
  end.
Definition sprint (d : dialect) (v : gval) : outcome bytes := sprint_at false d v.

(** fmt.go:203-208: names of [sql.NamedArg] arguments; the last one wins. *)
Fixpoint named_args_lookup_from (i : nat) (args : list gval) (m : list (bytes * nat))
  : list (bytes * nat) :=
  match args with
  | [] => m
  | GNamedArg name _ :: rest => named_args_lookup_from (S i) rest (mset name i m)
  | _ :: rest => named_args_lookup_from (S i) rest m
  end.
Definition named_args_lookup (args : list gval) := named_args_lookup_from 0 args [].

(** fmt.go:335-383 [lookupParam]. [pname] is never empty when called (211,
    270, 322), the empty case is a panic ([paramName[0]]). *)
Definition lookup_param (d : dialect) (args : list gval) (pname : list rune)
    (named : list (bytes * nat)) (running : nat) : outcome bytes :=
  match pname with
  | [] => Panic
  | p0 :: prest =>
    let maybe_num :=
      match prest with
      | p1 :: prest2 =>
        if (p0 =? R "@")%N && is_sqlserver d && ((p1 =? R "p")%N || (p1 =? R "P")%N)
        then string_of_runes prest2 else string_of_runes prest
      | [] => []
      end in
    if is_empty maybe_num then                            (* 343 *)
      if negb (p0 =? R "?")%N then Err (B "parameter name missing")
      else match nth_error args running with              (* 347, no bounds check *)
           | None => Panic
           | Some v => sprint d v
           end
    else
      match atoi maybe_num with
      | Some num =>                                       (* 355-365 *)
        let num := (num - 1)%Z in
        if (num <? 0)%Z || (Z.of_nat (length args) <=? num)%Z
        then Err (B "args index out of bounds")
        else match nth_error args (Z.to_nat num) with
             | Some v => sprint d v
             | None => Panic
             end
      | None =>
        if is_postgres d || is_mysql d                    (* 368 *)
        then Err (B "does not support named parameter")
        else match mget (string_of_runes prest) named with
             | None => Err (B "named parameter not provided")
             | Some num =>
               match nth_error args num with
               | Some v => sprint d v
               | None => Err (B "args index out of bounds")   (* 375 *)
               end
             end
      end
  end.

(** fmt.go:218-224 [nameTerminatingChars]. *)
Definition name_terminating (c : rune) : bool :=
  existsb (N.eqb c)
    [R ","; R "("; R ")"; R ";"; R "="; R ">"; R "<"; R "+"; R "-"; R "*"; R "/";
     9%N; 10%N; 11%N; 12%N; 13%N; 32%N; 133%N; 160%N; R ":"].

(** The locals of the scanning loop, fmt.go:209-213.  [inside] is
    [insideStringOrIdentifier]; [must] is [mustWriteCharAt], initially 0. *)
Record scan := mk_scan {
  sc_buf : bytes;
  sc_running : nat;
  sc_inside : bool;
  sc_quote : rune;
  sc_must : nat;
  sc_pname : list rune }.

Definition with_buf (st : scan) (b : bytes) : scan :=
  mk_scan (sc_buf st ++ b) (sc_running st) (sc_inside st) (sc_quote st) (sc_must st) (sc_pname st).
Definition with_inside (st : scan) (b : bool) : scan :=
  mk_scan (sc_buf st) (sc_running st) b (sc_quote st) (sc_must st) (sc_pname st).
Definition with_must (st : scan) (i : nat) : scan :=
  mk_scan (sc_buf st) (sc_running st) (sc_inside st) (sc_quote st) i (sc_pname st).

Definition nullb {A} (l : list A) : bool := match l with [] => true | _ => false end.

(** fmt.go:263: does the char open a string or identifier? *)
Definition opens_quote (d : dialect) (c : rune) : bool :=
  ((c =? R "'") || (c =? R """") || ((c =? R "`") && is_mysql d)
   || ((c =? R "[") && is_sqlserver d))%N.
(** fmt.go:289-291: does the char start a parameter name? *)
Definition starts_param (d : dialect) (c : rune) : bool :=
  (((c =? R "$") && (is_sqlite d || is_postgres d))
   || ((c =? R ":") && is_sqlite d)
   || ((c =? R "@") && (is_sqlite d || is_sqlserver d)))%N.

(** The character that closes a token opened by [q] (234-258). *)
Definition closer (q : rune) : rune :=
  if (q =? R "[")%N then R "]" else q.

(** One iteration of the loop fmt.go:225-320.  [suffix] is [query[i:]]. *)
Definition scan_step (d : dialect) (args : list gval) (named : list (bytes * nat))
    (st : scan) (x : nat * rune * bytes) : outcome scan :=
  let '(i, c, suffix) := x in
  if Nat.eqb (sc_must st) i then Ok (with_buf st (encode_rune c))       (* 227-230 *)
  else if sc_inside st then                                              (* 232-261 *)
    let st1 := with_buf st (encode_rune c) in
    if (c =? closer (sc_quote st))%N then
      match nth_error suffix 1 with
      | Some b => if (ord b =? closer (sc_quote st))%N
                  then Ok (with_must st1 (i + 1))
                  else Ok (with_inside st1 false)
      | None => Ok (with_inside st1 false)
      end
    else Ok st1
  else if opens_quote d c then                                           (* 263-268 *)
    Ok (mk_scan (sc_buf st ++ encode_rune c) (sc_running st) true c (sc_must st) (sc_pname st))
  else if negb (nullb (sc_pname st)) then                                (* 270-287 *)
    if name_terminating c then
      match lookup_param d args (sc_pname st) named (sc_running st) with
      | Ok v =>
        let running := match sc_pname st with
                       | [p] => if (p =? R "?")%N then S (sc_running st) else sc_running st
                       | _ => sc_running st
                       end in
        Ok (mk_scan (sc_buf st ++ v ++ encode_rune c) running (sc_inside st)
              (sc_quote st) (sc_must st) [])
      | Err e => Err e
      | Panic => Panic
      end
    else Ok (mk_scan (sc_buf st) (sc_running st) (sc_inside st) (sc_quote st)
               (sc_must st) (sc_pname st ++ [c]))
  else if starts_param d c then                                          (* 289-294 *)
    Ok (mk_scan (sc_buf st) (sc_running st) (sc_inside st) (sc_quote st) (sc_must st) [c])
  else if (c =? R "?")%N && negb (is_postgres d) then                    (* 296-316 *)
    if is_sqlite d
    then Ok (mk_scan (sc_buf st) (sc_running st) (sc_inside st) (sc_quote st) (sc_must st) [c])
    else match nth_error args (sc_running st) with
         | None => Err (B "too few args provided")
         | Some v =>
           match sprint d v with
           | Ok t => Ok (mk_scan (sc_buf st ++ t) (S (sc_running st)) (sc_inside st)
                           (sc_quote st) (sc_must st) (sc_pname st))
           | Err e => Err e
           | Panic => Panic
           end
         end
  else Ok (with_buf st (encode_rune c)).                                 (* 319 *)

Fixpoint scan_loop (d : dialect) (args : list gval) (named : list (bytes * nat))
    (st : scan) (rs : list (nat * rune * bytes)) : outcome scan :=
  match rs with
  | [] => Ok st
  | x :: rs' => match scan_step d args named st x with
                | Ok st' => scan_loop d args named st' rs'
                | Err e => Err e
                | Panic => Panic
                end
  end.

Definition scan_init : scan := mk_scan [] 0 false 0%N 0 [].

(** fmt.go:321-332: flush the last parameter, check for unclosed quotes. *)
Definition scan_finish (d : dialect) (args : list gval) (named : list (bytes * nat))
    (st : scan) : outcome bytes :=
  let closed (b : bytes) : outcome bytes :=
    if sc_inside st then Err (B "unclosed string or identifier") else Ok b in
  if negb (nullb (sc_pname st)) then
    match lookup_param d args (sc_pname st) named (sc_running st) with
    | Ok v => closed (sc_buf st ++ v)
    | Err e => Err e
    | Panic => Panic
    end
  else closed (sc_buf st).

(** fmt.go:193-333 [Sprintf].  Simplification: on error Go also returns the
    partial text; the model returns the error only. *)
Definition sprintf (d : dialect) (query : bytes) (args : list gval) : outcome bytes :=
  match args with
  | [] => Ok query
  | _ =>
    let named := named_args_lookup args in
    match scan_loop d args named scan_init (range_string query) with
    | Ok st => scan_finish d args named st
    | Err e => Err e
    | Panic => Panic
    end
  end.
