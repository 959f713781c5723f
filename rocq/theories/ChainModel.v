(** * ChainModel: the query builders: files with names ending in _query_sqlite.go, _query_postgres.go, _query_mysql.go; join_table.go:24-69

    Queries as values: methods have value receivers, so a call yields the
    changed copy.  Arrays that copies share are the subject of [BuilderModel]. *)
From Verif Require Import GoBase QuoteModel SprintModel TokenModel EffectModel RenderModel BuildModel.

(** And(predicates...) as a VariadicPredicate: predicate.go:130-132; the zero VariadicPredicate. *)
Definition all_of (ps : list node) : vpred_ node := mk_vpred false [] false ps false.
Definition add_preds (p : vpred_ node) (ps : list node) : vpred_ node :=
  mk_vpred (vp_top p) (vp_alias p) (vp_or p) (vp_preds p ++ ps) (vp_neg p).

(** ** Joins: join_table.go:8-69 *)
Inductive join_call :=
| Join (t : option node) (ps : list node) | LeftJoin (t : option node) (ps : list node)
| RightJoin (t : option node) (ps : list node) | FullJoin (t : option node) (ps : list node)
| CrossJoin (t : option node) | CustomJoin (ty : bytes) (t : option node) (ps : list node).
Definition join_table (j : join_call) : join_ node :=
  match j with
  | Join t ps => mk_join (B "JOIN") t (all_of ps)
  | LeftJoin t ps => mk_join (B "LEFT JOIN") t (all_of ps)
  | RightJoin t ps => mk_join (B "RIGHT JOIN") t (all_of ps)
  | FullJoin t ps => mk_join (B "FULL JOIN") t (all_of ps)
  | CrossJoin t => mk_join (B "CROSS JOIN") t (all_of [])
  | CustomJoin ty t ps => mk_join ty t (all_of ps)
  end.

(** ** SELECT: select_query_sqlite.go:21-139, select_query_postgres.go:21-149, select_query_mysql.go:21-144 *)
Inductive select_call :=
| SWith (cs : list (cte_ node)) | SSelect (fs : list node) | SSelectOne | SSelectDistinct (fs : list node)
| SDistinctOn (fs : list node) | SFrom (t : option node) | SJoin (j : join_call) | SWhere (ps : list node)
| SGroupBy (fs : list node) | SHaving (ps : list node) | SOrderBy (fs : list node) | SLimit (n : Z) | SOffset (n : Z).
(** The method exists for the dialect: SelectOne only for sqlite (select_query_sqlite.go:74-77), DistinctOn only
    for postgres (80-83), RightJoin and FullJoin not for sqlite. *)
Definition has_join (d : dialect) (j : join_call) : bool :=
  match j with RightJoin _ _ | FullJoin _ _ => negb (is_sqlite d) | _ => true end.
Definition has_select (d : dialect) (c : select_call) : bool :=
  match c with
  | SSelectOne => is_sqlite d
  | SDistinctOn _ => is_postgres d
  | SJoin j => has_join d j
  | _ => true
  end.
Definition empty_select (dname : bytes) (e : option env) : select_ node :=
  mk_select dname e [] false [] [] None [] (all_of []) [] (all_of []) [] None None.
(** select_query_postgres.go:62-149, select_query_sqlite.go:62-139, select_query_mysql.go:62-144: equal bodies. *)
Definition select_step (q : select_ node) (c : select_call) : select_ node :=
  let '(mk_select dn e ct di fi don fr jo wh gr ha ord li off) := q in
  match c with
  | SWith cs => mk_select dn e (ct ++ cs) di fi don fr jo wh gr ha ord li off
  | SSelect fs => mk_select dn e ct di (fi ++ fs) don fr jo wh gr ha ord li off
  | SSelectOne => mk_select dn e ct di [NLiteral (B "1") []] don fr jo wh gr ha ord li off
  | SSelectDistinct fs => mk_select dn e ct true fs don fr jo wh gr ha ord li off
  | SDistinctOn fs => mk_select dn e ct di fi fs fr jo wh gr ha ord li off
  | SFrom t => mk_select dn e ct di fi don t jo wh gr ha ord li off
  | SJoin j => mk_select dn e ct di fi don fr (jo ++ [join_table j]) wh gr ha ord li off
  | SWhere ps => mk_select dn e ct di fi don fr jo (add_preds wh ps) gr ha ord li off
  | SGroupBy fs => mk_select dn e ct di fi don fr jo wh (gr ++ fs) ha ord li off
  | SHaving ps => mk_select dn e ct di fi don fr jo wh gr (add_preds ha ps) ord li off
  | SOrderBy fs => mk_select dn e ct di fi don fr jo wh gr ha (ord ++ fs) li off
  | SLimit n => mk_select dn e ct di fi don fr jo wh gr ha ord (Some n) off
  | SOffset n => mk_select dn e ct di fi don fr jo wh gr ha ord li (Some n)
  end.
(** The functions that start a query: From, SelectWith, Select, SelectOne, SelectDistinct
    (select_query_postgres.go:23-60, select_query_sqlite.go:23-60, select_query_mysql.go:23-60).  A query of the
    builder with that environment: SQLite, Postgres, MySQL or SQLiteEnv(env), ... (sq.go:30-59). *)
Inductive select_start :=
| StFrom (t : option node) | StSelectWith (cs : list (cte_ node)) | StSelect (fs : list node) | StSelectOne
| StSelectDistinct (fs : list node).
Definition start_select (dname : bytes) (e : option env) (s : select_start) : select_ node :=
  match s with
  | StFrom t => mk_select dname e [] false [] [] t [] (all_of []) [] (all_of []) [] None None
  | StSelectWith cs => mk_select dname e cs false [] [] None [] (all_of []) [] (all_of []) [] None None
  | StSelect fs => mk_select dname e [] false fs [] None [] (all_of []) [] (all_of []) [] None None
  | StSelectOne => mk_select dname e [] false [NLiteral (B "1") []] [] None [] (all_of []) [] (all_of []) [] None None
  | StSelectDistinct fs => mk_select dname e [] true fs [] None [] (all_of []) [] (all_of []) [] None None
  end.
Definition build_select (dname : bytes) (e : option env) (s : select_start) (cs : list select_call) : select_ node :=
  fold_left select_step cs (start_select dname e s).

(** ** UPDATE: update_query_sqlite.go:21-103, update_query_postgres.go:21-102, update_query_mysql.go:21-102 *)
(** A column mapper is given by its calls of Column.Set and whether it returns an error (C22). *)
Definition mapper_calls := (list (node * node) * bool)%type.
Inductive update_call :=
| UWith (cs : list (cte_ node)) | UUpdate (t : option node) | USet (l : list (node * node)) | USetx (m : mapper_calls)
| UFrom (t : option node) | UJoin (j : join_call) | UWhere (ps : list node) | UOrderBy (fs : list node)
| ULimit (n : Z) | UOffset (n : Z) | UReturning (fs : list node).
(** From: not for mysql; OrderBy, Limit: sqlite (84-97) and mysql (89-102); Offset: sqlite (99-103);
    Returning: postgres (99-102). *)
Definition has_update (d : dialect) (c : update_call) : bool :=
  match c with
  | UFrom _ => negb (is_mysql d)
  | UJoin j => has_join d j
  | UOrderBy _ | ULimit _ => is_mysql d || is_sqlite d
  | UOffset _ => is_sqlite d
  | UReturning _ => is_postgres d
  | _ => true
  end.
Definition update_step (q : update_ node) (c : update_call) : update_ node :=
  let '(mk_update dn e m ct t fr jo asg wh ord li off re) := q in
  match c with
  | UWith cs => mk_update dn e m (ct ++ cs) t fr jo asg wh ord li off re
  | UUpdate t' => mk_update dn e m ct t' fr jo asg wh ord li off re
  | USet l => mk_update dn e m ct t fr jo (asg ++ l) wh ord li off re
  | USetx m' => mk_update dn e (Some m') ct t fr jo asg wh ord li off re
  | UFrom f => mk_update dn e m ct t f jo asg wh ord li off re
  | UJoin j => mk_update dn e m ct t fr (jo ++ [join_table j]) asg wh ord li off re
  | UWhere ps => mk_update dn e m ct t fr jo asg (add_preds wh ps) ord li off re
  | UOrderBy fs => mk_update dn e m ct t fr jo asg wh (ord ++ fs) li off re
  | ULimit n => mk_update dn e m ct t fr jo asg wh ord (Some n) off re
  | UOffset n => mk_update dn e m ct t fr jo asg wh ord li (Some n) re
  | UReturning fs => mk_update dn e m ct t fr jo asg wh ord li off (re ++ fs)
  end.
(** UpdateWith, Update: 23-37. *)
Inductive update_start := StUpdateWith (cs : list (cte_ node)) | StUpdate (t : option node).
Definition start_update (dname : bytes) (e : option env) (s : update_start) : update_ node :=
  match s with
  | StUpdateWith cs => mk_update dname e None cs None None [] [] (all_of []) [] None None []
  | StUpdate t => mk_update dname e None [] t None [] [] (all_of []) [] None None []
  end.
Definition build_update (dname : bytes) (e : option env) (s : update_start) (cs : list update_call) : update_ node :=
  fold_left update_step cs (start_update dname e s).

(** ** DELETE: delete_query_sqlite.go:21-79, delete_query_postgres.go:21-97, delete_query_mysql.go:21-97 *)
Inductive delete_call :=
| DWith (cs : list (cte_ node)) | DDeleteFrom (ts : list (option node)) | DUsing (t : option node) | DJoin (j : join_call)
| DWhere (ps : list node) | DOrderBy (fs : list node) | DLimit (n : Z) | DOffset (n : Z) | DReturning (fs : list node).
(** DeleteFrom takes one table for sqlite and postgres (44-52), any number for mysql (44-47); Using and joins:
    not for sqlite; OrderBy, Limit: sqlite (59-68), mysql (84-93); Offset: sqlite (70-74);
    Returning: sqlite (76-79), postgres (94-97). *)
Definition has_delete (d : dialect) (c : delete_call) : bool :=
  match c with
  | DDeleteFrom ts => is_mysql d || Nat.eqb (length ts) 1
  | DUsing _ => negb (is_sqlite d)
  | DJoin _ => negb (is_sqlite d)
  | DOrderBy _ | DLimit _ => is_mysql d || is_sqlite d
  | DOffset _ => is_sqlite d
  | DReturning _ => is_postgres d || is_sqlite d
  | _ => true
  end.
Definition delete_step (q : delete_ node) (c : delete_call) : delete_ node :=
  let '(mk_delete dn e ct ts us jo wh ord li off re) := q in
  match c with
  | DWith cs => mk_delete dn e (ct ++ cs) ts us jo wh ord li off re
  | DDeleteFrom ts' => mk_delete dn e ct ts' us jo wh ord li off re
  | DUsing t => mk_delete dn e ct ts t jo wh ord li off re
  | DJoin j => mk_delete dn e ct ts us (jo ++ [join_table j]) wh ord li off re
  | DWhere ps => mk_delete dn e ct ts us jo (add_preds wh ps) ord li off re
  | DOrderBy fs => mk_delete dn e ct ts us jo wh fs li off re                (* replaces *)
  | DLimit n => mk_delete dn e ct ts us jo wh ord (Some n) off re
  | DOffset n => mk_delete dn e ct ts us jo wh ord li (Some n) re
  | DReturning fs => mk_delete dn e ct ts us jo wh ord li off (re ++ fs)
  end.
(** DeleteWith, DeleteFrom: 23-37. *)
Inductive delete_start := StDeleteWith (cs : list (cte_ node)) | StDeleteFrom (ts : list (option node)).
Definition start_delete (dname : bytes) (e : option env) (s : delete_start) : delete_ node :=
  match s with
  | StDeleteWith cs => mk_delete dname e cs [] None [] (all_of []) [] None None []
  | StDeleteFrom ts => mk_delete dname e [] ts None [] (all_of []) [] None None []
  end.
Definition build_delete (dname : bytes) (e : option env) (s : delete_start) (cs : list delete_call) : delete_ node :=
  fold_left delete_step cs (start_delete dname e s).

(** ** INSERT: insert_query_sqlite.go:21-105, insert_query_postgres.go:21-112, insert_query_mysql.go:21-73 *)
(** A whole conflict clause: OnConflict(fields...) or OnConflictOnConstraint(name), the calls of Where,
    and DoNothing() or DoUpdateSet(assignments...) (insert_query_postgres.go:70-102, insert_query_sqlite.go:70-95). *)
Inductive conflict_on := OnFields (fs : list node) | OnConstraint (name : bytes).
Inductive conflict_do := DoNothing | DoUpdateSet (l : list (node * node)).
Inductive insert_call :=
| IWith (cs : list (cte_ node)) | IInsertInto (t : option node) | IColumns (fs : list node) | IValues (vs : list node)
| IValuesx (m : mapper_calls) | ISelect (q : select_ node)
| IConflict (target : conflict_on) (wheres : list node) (resolution : conflict_do)
| IAsRow (a : bytes) | IAsColumns (l : list bytes) | IOnDuplicateKeyUpdate (l : list (node * node))
| IWhere (ps : list node) | IReturning (fs : list node).
(** mysql has no With, InsertInto (only to start), OnConflict, Where, Returning but AsRow, AsColumns and
    OnDuplicateKeyUpdate; sqlite has no OnConflictOnConstraint. *)
Definition has_insert (d : dialect) (c : insert_call) : bool :=
  match c with
  | IWith _ | IInsertInto _ | IWhere _ | IReturning _ => negb (is_mysql d)
  | IConflict (OnFields _) _ _ => negb (is_mysql d)
  | IConflict (OnConstraint _) _ _ => is_postgres d
  | IAsRow _ | IAsColumns _ | IOnDuplicateKeyUpdate _ => is_mysql d
  | _ => true
  end.
Definition conflict_where (p : option node) (p' : node) : option node := if is_nil p' then None else Some p'.
Definition insert_step (q : insert_ node) (c : insert_call) : insert_ node :=
  let '(mk_insert dn e m ct ig t col rows ra ca sel cn cf cp no res rp re) := q in
  match c with
  | IWith cs => mk_insert dn e m (ct ++ cs) ig t col rows ra ca sel cn cf cp no res rp re
  | IInsertInto t' => mk_insert dn e m ct ig t' col rows ra ca sel cn cf cp no res rp re
  | IColumns fs => mk_insert dn e m ct ig t fs rows ra ca sel cn cf cp no res rp re
  | IValues vs => mk_insert dn e m ct ig t col (rows ++ [vs]) ra ca sel cn cf cp no res rp re
  | IValuesx m' => mk_insert dn e (Some m') ct ig t col rows ra ca sel cn cf cp no res rp re
  | ISelect s => mk_insert dn e m ct ig t col rows ra ca (Some s) cn cf cp no res rp re
  | IConflict target wheres resolution =>
    let cp := fold_left conflict_where wheres cp in
    let '(cn, cf) := match target with OnFields fs => (cn, fs) | OnConstraint n => (n, cf) end in
    let '(no, res) := match resolution with DoNothing => (true, res) | DoUpdateSet l => (no, l) end in
    mk_insert dn e m ct ig t col rows ra ca sel cn cf cp no res rp re
  | IAsRow a => mk_insert dn e m ct ig t col rows a ca sel cn cf cp no res rp re
  | IAsColumns l => mk_insert dn e m ct ig t col rows ra l sel cn cf cp no res rp re
  | IOnDuplicateKeyUpdate l => mk_insert dn e m ct ig t col rows ra ca sel cn cf cp no l rp re
  | IWhere ps => mk_insert dn e m ct ig t col rows ra ca sel cn cf cp no res (add_preds rp ps) re
  | IReturning fs => mk_insert dn e m ct ig t col rows ra ca sel cn cf cp no res rp (re ++ fs)
  end.
(** InsertWith, InsertInto (insert_query_postgres.go:23-37), InsertIgnoreInto (insert_query_mysql.go:31-38). *)
Inductive insert_start := StInsertWith (cs : list (cte_ node)) | StInsertInto (t : option node) | StInsertIgnoreInto (t : option node).
Definition has_insert_start (d : dialect) (s : insert_start) : bool :=
  match s with StInsertWith _ => negb (is_mysql d) | StInsertInto _ => true | StInsertIgnoreInto _ => is_mysql d end.
Definition start_insert (dname : bytes) (e : option env) (s : insert_start) : insert_ node :=
  let q ct ig t := mk_insert dname e None ct ig t [] [] [] [] None [] [] None false [] (all_of []) [] in
  match s with
  | StInsertWith cs => q cs false None
  | StInsertInto t => q [] false t
  | StInsertIgnoreInto t => q [] true t
  end.
Definition build_insert (dname : bytes) (e : option env) (s : insert_start) (cs : list insert_call) : insert_ node :=
  fold_left insert_step cs (start_insert dname e s).
