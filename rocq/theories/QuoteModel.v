(** * QuoteModel: dialects, EscapeQuote, QuoteIdentifier (sq.go) *)
From Verif Require Import GoBase.

(** The dialect strings of sq.go:21-27.  Code branches on equality with the
    four named dialects only; every other string (including "oracle" and "")
    is [DOther]. *)
Inductive dialect := DSQLite | DPostgres | DMySQL | DSQLServer | DOther (name : bytes).

Definition dialect_name (d : dialect) : bytes :=
  match d with
  | DSQLite => B "sqlite" | DPostgres => B "postgres" | DMySQL => B "mysql"
  | DSQLServer => B "sqlserver" | DOther n => n
  end.

Definition is_sqlite d := match d with DSQLite => true | _ => false end.
Definition is_postgres d := match d with DPostgres => true | _ => false end.
Definition is_mysql d := match d with DMySQL => true | _ => false end.
Definition is_sqlserver d := match d with DSQLServer => true | _ => false end.

(** sq.go:194-217 [EscapeQuote].  The loop [for i >= 0] with its local [str],
    [buf]; [i] is recomputed from [str].  Each iteration drops at least one
    byte of [str], so [length str] iterations suffice (the out-of-fuel branch
    is unreachable, lemma [escape_quote_unfold] in QuoteFacts).
    Simplification: the pooled buffer is a local accumulator. *)
Fixpoint escape_loop (fuel : nat) (q : ascii) (buf str : bytes) : bytes :=
  match index_byte q str with
  | None => buf ++ str                                  (* 215: buf.WriteString(str) *)
  | Some i =>
    match fuel with
    | 0 => buf
    | S f =>
      let buf' := buf ++ firstn i str ++ [q; q] in      (* 207 *)
      let tail := skipn i str in                        (* str[i:] *)
      if Nat.ltb 2 (length tail) && beqb (firstn 2 tail) [q; q]  (* 208 *)
      then escape_loop f q buf' (skipn 2 tail)          (* 209 *)
      else escape_loop f q buf' (skipn 1 tail)          (* 211 *)
    end
  end.
Definition escape_quote (str : bytes) (q : ascii) : bytes :=
  escape_loop (length str) q [] str.

(** sq.go:219-241: the scan deciding whether quoting is needed.  [range]
    yields runes; [break] on the first offending one. *)
Fixpoint needs_quoting_scan (rs : list (nat * rune * bytes)) : bool :=
  match rs with
  | [] => false
  | (i, c, _) :: rs' =>
    if Nat.eqb i 0 && in_range 48 57 c then true
    else if (c =? 95)%N || in_range 48 57 c || in_range 97 122 c
         then needs_quoting_scan rs'
         else true
  end.
Definition needs_quoting (identifier : bytes) : bool :=
  is_empty identifier || needs_quoting_scan (range_string identifier).

(** The opening and closing quote of identifiers, sq.go:242-250. *)
Definition ident_open (d : dialect) : ascii :=
  match d with DMySQL => "`" | DSQLServer => "[" | _ => """" end%char.
Definition ident_close (d : dialect) : ascii :=
  match d with DMySQL => "`" | DSQLServer => "]" | _ => """" end%char.

(** sq.go:219-251 [QuoteIdentifier]. *)
Definition quote_identifier (d : dialect) (identifier : bytes) : bytes :=
  if needs_quoting identifier
  then [ident_open d] ++ escape_quote identifier (ident_close d) ++ [ident_close d]
  else identifier.

(** ddl/introspect.go:77-90 [printList]: the list literal spliced into the
    introspection queries. *)
Fixpoint print_list_from (i : nat) (strs : list bytes) : bytes :=
  match strs with
  | [] => []
  | s :: rest =>
    (if Nat.ltb 0 i then B ", " else [])
    ++ B "'" ++ escape_quote s "'" ++ B "'" ++ print_list_from (S i) rest
  end.
Definition print_list (strs : list bytes) : bytes := print_list_from 0 strs.
