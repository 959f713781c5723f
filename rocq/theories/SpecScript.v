(** * SpecScript: what an introspection query asks for (C63)

    The query text is read the way the database reads it: into tokens, then the
    conditions of its WHERE clauses, which are evaluated for one row. *)
From Verif Require Import GoBase QuoteModel SpecLex TemplateModel ScriptText.

(** ** Tokens *)
Inductive tok := TWord (w : bytes) | TStr (v : bytes) | TIdent (v : bytes) | TSym (c : ascii) | TBad.
(** Letters, digits, underscore. *)
Definition word_char (c : ascii) : bool :=
  in_range 48 57 (ord c) || in_range 65 90 (ord c) || in_range 97 122 (ord c) || Ascii.eqb c "_".
(** The reader, one character after the other; text is collected in reverse.
    [LStrQ]: after a quote inside a string: its end, or the first half of a doubled
    quote. *)
Inductive lex_state :=
  | LNorm | LWord (w : bytes) | LStr (v : bytes) | LEsc (v : bytes) | LStrQ (v : bytes) | LIdent (v : bytes) | LIdentQ (v : bytes)
  | LDash | LLine | LSlash | LBlock | LStar.
Definition lex_norm (c : ascii) : lex_state * list tok :=
  if blank c then (LNorm, [])
  else if Ascii.eqb c "'" then (LStr [], [])
  else if Ascii.eqb c """" then (LIdent [], [])
  else if Ascii.eqb c "-" then (LDash, [])
  else if Ascii.eqb c "/" then (LSlash, [])
  else if word_char c then (LWord [c], [])
  else (LNorm, [TSym c]).
Definition first_then (t : tok) (r : lex_state * list tok) : lex_state * list tok := (fst r, t :: snd r).
(** [bs]: a backslash in a string escapes what follows (MySQL). *)
Definition lex_step (bs : bool) (st : lex_state) (c : ascii) : lex_state * list tok :=
  match st with
  | LNorm => lex_norm c
  | LWord w => if word_char c then (LWord (c :: w), []) else first_then (TWord (rev w)) (lex_norm c)
  | LStr v => if Ascii.eqb c "'" then (LStrQ v, []) else if bs && Ascii.eqb c "\" then (LEsc v, []) else (LStr (c :: v), [])
  | LEsc v => (LStr (c :: v), [])
  | LStrQ v => if Ascii.eqb c "'" then (LStr ("'"%char :: v), []) else first_then (TStr (rev v)) (lex_norm c)
  | LIdent v => if Ascii.eqb c """" then (LIdentQ v, []) else (LIdent (c :: v), [])
  | LIdentQ v => if Ascii.eqb c """" then (LIdent (""""%char :: v), []) else first_then (TIdent (rev v)) (lex_norm c)
  | LDash => if Ascii.eqb c "-" then (LLine, []) else first_then (TSym "-") (lex_norm c)
  | LLine => if (ord c =? 10)%N then (LNorm, []) else (LLine, [])
  | LSlash => if Ascii.eqb c "*" then (LBlock, []) else first_then (TSym "/") (lex_norm c)
  | LBlock => if Ascii.eqb c "*" then (LStar, []) else (LBlock, [])
  | LStar => if Ascii.eqb c "/" then (LNorm, []) else if Ascii.eqb c "*" then (LStar, []) else (LBlock, [])
  end.
Fixpoint lex_run (bs : bool) (st : lex_state) (s : bytes) : lex_state * list tok :=
  match s with
  | [] => (st, [])
  | c :: s' => let (st1, t1) := lex_step bs st c in let (st2, t2) := lex_run bs st1 s' in (st2, t1 ++ t2)
  end.
Definition lex_end (st : lex_state) : list tok :=
  match st with
  | LNorm | LLine => []
  | LWord w => [TWord (rev w)]
  | LStrQ v => [TStr (rev v)]
  | LIdentQ v => [TIdent (rev v)]
  | LDash => [TSym "-"]
  | LSlash => [TSym "/"]
  | _ => [TBad]                                       (* not closed *)
  end.
Definition lex (bs : bool) (s : bytes) : list tok := let (st, ts) := lex_run bs LNorm s in ts ++ lex_end st.
Definition backslashes (d : dialect) : bool := match d with DMySQL => true | _ => false end.

(** ** WHERE clauses and their conditions *)
Definition tok_eqb (a b : tok) : bool :=
  match a, b with
  | TWord a, TWord b | TStr a, TStr b | TIdent a, TIdent b => beqb a b
  | TSym a, TSym b => Ascii.eqb a b
  | TBad, TBad => true
  | _, _ => false
  end.
Definition KWHERE := TWord (B "WHERE").
Definition KAND := TWord (B "AND").
Definition OPEN := TSym "(".
Definition CLOSE := TSym ")".
(** What ends a WHERE clause, besides the bracket that closes its query. *)
Definition ends_where (t : tok) : bool :=
  existsb (tok_eqb t) [TWord (B "GROUP"); TWord (B "ORDER"); TWord (B "UNION"); TWord (B "HAVING"); TWord (B "LIMIT"); TSym ";"].
(** The tokens of a WHERE clause, at the start of [ts]; [d] brackets are open. *)
Fixpoint clause (d : nat) (ts : list tok) : list tok :=
  match ts with
  | [] => []
  | t :: ts' =>
    if tok_eqb t OPEN then t :: clause (S d) ts'
    else if tok_eqb t CLOSE then match d with O => [] | S d => t :: clause d ts' end
    else if Nat.eqb d 0 && ends_where t then []
    else t :: clause d ts'
  end.
(** All WHERE clauses, in the order in which they are written. *)
Fixpoint wheres (ts : list tok) : list (list tok) :=
  match ts with
  | [] => []
  | t :: ts' => if tok_eqb t KWHERE then clause 0 ts' :: wheres ts' else wheres ts'
  end.
(** Its conditions: separated by the ANDs outside brackets. *)
Fixpoint conditions_from (d : nat) (cur : list tok) (ts : list tok) : list (list tok) :=
  match ts with
  | [] => [cur]
  | t :: ts' =>
    if tok_eqb t OPEN then conditions_from (S d) (cur ++ [t]) ts'
    else if tok_eqb t CLOSE then conditions_from (d - 1) (cur ++ [t]) ts'
    else if Nat.eqb d 0 && tok_eqb t KAND then cur :: conditions_from 0 [] ts'
    else conditions_from d (cur ++ [t]) ts'
  end.
Definition conditions (w : list tok) : list (list tok) := conditions_from 0 [] w.

(** ** The value of a condition *)
Fixpoint like (fold : ascii -> ascii) (p : bytes) : bytes -> bool :=
  match p with
  | [] => fun s => match s with [] => true | _ => false end
  | c :: p' =>
    if Ascii.eqb c "%" then
      fix any (s : bytes) : bool := like fold p' s || match s with [] => false | _ :: s' => any s' end
    else fun s => match s with
                  | [] => false
                  | x :: s' => (Ascii.eqb c "_" || Ascii.eqb (fold c) (fold x)) && like fold p' s'
                  end
  end.
Definition ascii_lower (c : ascii) : ascii := if in_range 65 90 (ord c) then chr (ord c + 32) else c.
(** LIKE: letters are the same in upper and lower case, except on Postgres. *)
Definition like_fold (d : dialect) : ascii -> ascii := match d with DPostgres => fun c => c | _ => ascii_lower end.
Fixpoint strip (p ts : list tok) : option (list tok) :=
  match p, ts with
  | [], _ => Some ts
  | a :: p', b :: ts' => if tok_eqb a b then strip p' ts' else None
  | _, _ => None
  end.
(** 'a', 'b') *)
Fixpoint read_values (ts : list tok) : option (list bytes) :=
  match ts with
  | [TStr v; t] => if tok_eqb t CLOSE then Some [v] else None
  | TStr v :: t :: ts' => if tok_eqb t (TSym ",") then option_map (cons v) (read_values ts') else None
  | _ => None
  end.
Definition among (v : bytes) (l : list bytes) : bool := existsb (beqb v) l.
(** What the tokens after a column say about its value [v]; [None]: something
    else, or not SQL. *)
Definition says_of (d : dialect) (v : bytes) (ts : list tok) : option bool :=
  match strip [TWord (B "IN"); OPEN] ts with
  | Some r => option_map (among v) (read_values r)
  | None =>
    match strip [TWord (B "NOT"); TWord (B "IN"); OPEN] ts with
    | Some r => option_map (fun l => negb (among v l)) (read_values r)
    | None =>
      match strip [TSym "<"; TSym ">"] ts with
      | Some [TStr x] => Some (negb (beqb v x))
      | _ =>
        match strip [TWord (B "NOT"); TWord (B "LIKE")] ts with
        | Some [TStr p] => Some (negb (like (like_fold d) p v))
        | _ => None
        end
      end
    end
  end.
(** [cols]: column expressions with their values in the row. *)
Fixpoint holds (d : dialect) (cols : list (list tok * bytes)) (cond : list tok) : option bool :=
  match cols with
  | [] => None
  | (col, v) :: cols' =>
    match strip col cond with
    | Some r => match says_of d v r with Some b => Some b | None => holds d cols' cond end
    | None => holds d cols' cond
    end
  end.
(** The conditions on these columns all hold (other conditions say which kind of
    object is meant). *)
Definition admits (d : dialect) (cols : list (list tok * bytes)) (w : list tok) : bool :=
  forallb (fun c => match holds d cols c with Some b => b | None => true end) (conditions w).
(** Not SQL: a condition is missing, or an IN has no values. *)
Fixpoint has_empty_in (ts : list tok) : bool :=
  match ts with
  | a :: ((b :: c :: _) as ts') => (tok_eqb a (TWord (B "IN")) && tok_eqb b OPEN && tok_eqb c CLOSE) || has_empty_in ts'
  | _ => false
  end.
Definition proper (w : list tok) : Prop := Forall (fun c => c <> [] /\ has_empty_in c = false) (conditions w).

(** ** What the filter asks for *)
(** A row: the schema of the object, its name (for a column, constraint, index or
    trigger the name of its table), on SQLite the statement that made it. *)
Record row := mk_row { r_schema : bytes; r_name : bytes; r_sql : bytes }.
Fixpoint starts (fold : ascii -> ascii) (p s : bytes) : bool :=
  match p, s with
  | [], _ => true
  | a :: p', b :: s' => Ascii.eqb (fold a) (fold b) && starts fold p' s'
  | _, _ => false
  end.
(** What the scripts take for a system object (see the findings). *)
Definition system_object (d : dialect) (r : row) : bool :=
  match d with
  | DPostgres => beqb (r_schema r) (B "information_schema") || (starts (fun c => c) (B "pg") (r_schema r) && Nat.ltb 2 (length (r_schema r)))
  | DMySQL => among (r_schema r) [B "mysql"; B "information_schema"; B "performance_schema"; B "sys"]
  | _ => (starts ascii_lower (B "sqlite") (r_name r) && Nat.ltb 6 (length (r_name r))) || starts ascii_lower (B "create table '") (r_sql r)
  end.
Definition allowed (with_ without : list bytes) (v : bytes) : bool :=
  match with_ with [] => true | _ => among v with_ end && negb (among v without).
(** SQLite has no schemas; functions have their own lists of names. *)
Inductive object_kind := OTables | OFunctions.
Definition keeps (d : dialect) (k : object_kind) (f : filter) (r : row) : bool :=
  (f_system f || negb (system_object d r)) &&
  match d with DSQLite => true | _ => allowed (f_with_schemas f) (f_without_schemas f) (r_schema r) end &&
  match k with
  | OTables => allowed (f_with_tables f) (f_without_tables f) (r_name r)
  | OFunctions => allowed (f_with_functions f) (f_without_functions f) (r_name r)
  end.

(** ** The scripts, and where they apply the filter: for each WHERE clause the
    columns that hold schema (the same one, if written in two ways) and name of the
    object; [None]: a clause that does not select objects. *)
Record script := mk_script { s_dialect : dialect; s_kind : object_kind; s_text : bytes; s_places : list (option (list bytes * bytes)) }.
Definition place (a b : string) : option (list bytes * bytes) := Some ([B a], B b).
Definition scripts : list script :=
  [mk_script DSQLite OTables sqlite_tables [place "" "tbl_name"];
   mk_script DSQLite OTables sqlite_columns [place "" "tbl_name"];
   mk_script DSQLite OTables sqlite_constraints [place "" "tbl_name"; None; place "" "tbl_name"; None; place "" "tbl_name"];
   mk_script DSQLite OTables sqlite_indexes [place "" "tbl_name"; None];
   mk_script DSQLite OTables sqlite_triggers [place "" "tbl_name"];
   mk_script DSQLite OTables sqlite_views [place "" "tbl_name"];
   mk_script DPostgres OTables postgres_tables [place "schemas.nspname" "tables.relname"];
   mk_script DPostgres OTables postgres_columns [place "schemas.nspname" "tables.relname"];
   mk_script DPostgres OTables postgres_constraints
     [place "schemas.nspname" "tables.relname"; place "schemas1.nspname" "tables1.relname"; place "schemas.nspname" "tables.relname";
      place "schemas.nspname" "tables.relname"];
   mk_script DPostgres OTables postgres_indexes [place "schemas.nspname" "tables.relname"; None];
   mk_script DPostgres OTables postgres_triggers [place "schemas.nspname" "tables.relname"];
   mk_script DPostgres OTables postgres_views [place "schemaname" "viewname"; place "schemaname" "matviewname"];
   mk_script DPostgres OFunctions postgres_functions [place "schemas.nspname" "proc1.proname"; None];
   mk_script DMySQL OTables mysql_tables [place "table_schema" "table_name"];
   mk_script DMySQL OTables mysql_columns [place "c.table_schema" "c.table_name"];
   mk_script DMySQL OTables mysql_constraints [place "tc.table_schema" "tc.table_name"; Some ([B "tc.table_schema"; B "table_schema"], B "tc.table_name")];
   mk_script DMySQL OTables mysql_indexes [place "table_schema" "table_name"; None];
   mk_script DMySQL OTables mysql_triggers [place "event_object_schema" "event_object_table"];
   mk_script DMySQL OTables mysql_views [place "table_schema" "table_name"]].
(** The columns of a place, with their values in the row. *)
Definition columns_at (d : dialect) (p : list bytes * bytes) (r : row) : list (list tok * bytes) :=
  match d with
  | DSQLite => [(lex false (snd p), r_name r); (lex false (B "sql"), r_sql r)]
  | _ => (lex false (snd p), r_name r) :: map (fun c => (lex false c, r_schema r)) (fst p)
  end.
(** Names that reach the database as they are: no doubled quote inside (C02), on
    MySQL no backslash. *)
Definition plain_name (d : dialect) (n : bytes) : Prop := ~ has_inner_pair "'" n /\ (d = DMySQL -> ~ In "\"%char n).
Definition lists_of (f : filter) : list (list bytes) :=
  [f_with_schemas f; f_without_schemas f; f_with_tables f; f_without_tables f; f_with_functions f; f_without_functions f].
Definition plain_filter (d : dialect) (f : filter) : Prop := Forall (Forall (plain_name d)) (lists_of f).
