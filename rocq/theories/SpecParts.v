(** * SpecParts: what the calls of a DDL method should do to the constraints,
    indexes and triggers of the table (C62)

    Everything is found by its name; positions play no role. *)
From Verif Require Import GoBase QuoteModel UpsertModel NameModel TokenModel DdlModel MigrateModel LoadModel TriggerModel SpecTrigger.

(** The object named [n] becomes what [upd] makes of it; if there is none, [new]
    comes last. *)
Fixpoint put {A} (name_of : A -> bytes) (n : bytes) (new : A) (upd : A -> A) (l : list A) : list A :=
  match l with
  | [] => [new]
  | a :: l' => if beqb (name_of a) n then upd a :: l' else a :: put name_of n new upd l'
  end.
Definition change {A} (name_of : A -> bytes) (n : bytes) (f : A -> A) (l : list A) : list A :=
  map (fun a => if beqb (name_of a) n then f a else a) l.

(** ** Constraints *)
(** Defined again, a constraint belongs to the table, and has the new type,
    columns and condition; the rest stays. *)
Definition defined (tb : table_id) (ty n : bytes) (columns : list bytes) (check : bytes) : constraint :=
  mk_constraint (tb_schema tb) (tb_name tb) n ty columns [] [] [] [] [] [] [] check [] [] [] false false [] false.
Definition redefined (tb : table_id) (ty : bytes) (columns : list bytes) (check : bytes) (c : constraint) : constraint :=
  mk_constraint (tb_schema tb) (tb_name tb) (c_name c) ty columns (c_exprs c) (c_ref_schema c) (c_ref_table c) (c_ref_columns c)
    (c_update c) (c_delete c) (c_match c) check (c_operators c) (c_index_type c) (c_predicate c) (c_deferrable c) (c_deferred c)
    (c_comment c) (c_ignore c).
Definition excluded (tb : table_id) (n ixt : bytes) (columns exprs operators : list bytes) : constraint :=
  mk_constraint (tb_schema tb) (tb_name tb) n (B "EXCLUDE") columns exprs [] [] [] [] [] [] [] operators ixt [] false false [] false.
Definition re_excluded (tb : table_id) (ixt : bytes) (columns exprs operators : list bytes) (c : constraint) : constraint :=
  mk_constraint (tb_schema tb) (tb_name tb) (c_name c) (B "EXCLUDE") columns exprs (c_ref_schema c) (c_ref_table c) (c_ref_columns c)
    (c_update c) (c_delete c) (c_match c) (c_check c) operators ixt (c_predicate c) (c_deferrable c) (c_deferred c)
    (c_comment c) (c_ignore c).
(** A method of a TConstraint. *)
Definition after_attr (d : dialect) (tb : table_id) (a : constraint_attr) (c : constraint) : constraint :=
  match a with
  | AConfig f =>
    mk_constraint (tb_schema tb) (tb_name tb) (c_name c) (c_type (f c)) (c_columns (f c)) (c_exprs (f c)) (c_ref_schema (f c))
      (c_ref_table (f c)) (c_ref_columns (f c)) (c_update (f c)) (c_delete (f c)) (c_match (f c)) (c_check (f c)) (c_operators (f c))
      (c_index_type (f c)) (c_predicate (f c)) (c_deferrable (f c)) (c_deferred (f c)) (c_comment (f c)) (c_ignore (f c))
  | _ =>
    mk_constraint (c_schema c) (c_table c) (c_name c) (c_type c) (c_columns c) (c_exprs c) (c_ref_schema c)
      (match a with AReferences t _ => t | _ => c_ref_table c end)
      (match a with AReferences _ cs => cs | _ => c_ref_columns c end)
      (match a with AOnUpdate r => r | _ => c_update c end)
      (match a with AOnDelete r => r | _ => c_delete c end)
      (c_match c) (c_check c) (c_operators c) (c_index_type c)
      (match a with AWhere e => e | _ => c_predicate c end)
      (match a, d with ADeferrable, DMySQL | AInitiallyDeferred, DMySQL => c_deferrable c | ADeferrable, _ | AInitiallyDeferred, _ => true
       | _, _ => c_deferrable c end)
      (match a, d with AInitiallyDeferred, DMySQL => c_deferred c | AInitiallyDeferred, _ => true | _, _ => c_deferred c end)
      (c_comment c) (c_ignore c)
  end.
(** [cols]: the columns asked for so far, [ks]: the constraints defined so far (a
    TColumn or TConstraint is the result of one of these calls). *)
Fixpoint constraints_after (d : dialect) (tb : table_id) (cols ks : list bytes) (calls : list t_call) (l : list constraint) : list constraint :=
  match calls with
  | [] => l
  | TColumn n :: r => constraints_after d tb (cols ++ [n]) ks r l
  | TColumnCall h TCPrimaryKey :: r =>
    let n := nth h cols [] in let k := generate_name PRIMARY_KEY (tb_name tb) [n] in
    constraints_after d tb cols ks r (put c_name k (defined tb PRIMARY_KEY k [n] []) (redefined tb PRIMARY_KEY [n] []) l)
  | TColumnCall h TCUnique :: r =>
    let n := nth h cols [] in let k := generate_name UNIQUE (tb_name tb) [n] in
    constraints_after d tb cols ks r (put c_name k (defined tb UNIQUE k [n] []) (redefined tb UNIQUE [n] []) l)
  | TConstraintCall (CDefine ty n columns check) :: r =>
    constraints_after d tb cols (ks ++ [n]) r (put c_name n (defined tb ty n columns check) (redefined tb ty columns check) l)
  | TConstraintCall (CExclude n ixt columns exprs operators) :: r =>
    constraints_after d tb cols (ks ++ [n]) r (put c_name n (excluded tb n ixt columns exprs operators) (re_excluded tb ixt columns exprs operators) l)
  | TConstraintCall (CAttr h a) :: r => constraints_after d tb cols ks r (change c_name (nth h ks []) (after_attr d tb a) l)
  | _ :: r => constraints_after d tb cols ks r l
  end.

(** ** Indexes *)
Definition defined_index (tb : table_id) (n : bytes) (columns exprs : list bytes) : index :=
  mk_index (tb_schema tb) (tb_name tb) n [] false columns exprs [] [] [] [] false.
Definition redefined_index (tb : table_id) (columns exprs : list bytes) (x : index) : index :=
  mk_index (tb_schema tb) (tb_name tb) (x_name x) (x_type x) (x_unique x) columns exprs (x_include x) (x_predicate x) (x_sql x) (x_comment x) (x_ignore x).
Definition after_index_attr (tb : table_id) (a : index_attr) (x : index) : index :=
  match a with
  | IConfig f =>
    mk_index (tb_schema tb) (tb_name tb) (x_name x) (x_type (f x)) (x_unique (f x)) (x_columns (f x)) (x_exprs (f x)) (x_include (f x))
      (x_predicate (f x)) (x_sql (f x)) (x_comment (f x)) (x_ignore (f x))
  | _ =>
    mk_index (x_schema x) (x_table x) (x_name x) (match a with IUsing t => t | _ => x_type x end) (match a with IUnique => true | _ => x_unique x end)
      (x_columns x) (x_exprs x) (match a with IInclude cs => cs | _ => x_include x end) (match a with IWhere e => e | _ => x_predicate x end)
      (x_sql x) (x_comment x) (x_ignore x)
  end.
Fixpoint indexes_after (tb : table_id) (xs : list bytes) (calls : list t_call) (l : list index) : list index :=
  match calls with
  | [] => l
  | TIndexCall (IDefine n columns exprs) :: r => indexes_after tb (xs ++ [n]) r (put x_name n (defined_index tb n columns exprs) (redefined_index tb columns exprs) l)
  | TIndexCall (IAttr h a) :: r => indexes_after tb xs r (change x_name (nth h xs []) (after_index_attr tb a) l)
  | _ :: r => indexes_after tb xs r l
  end.

(** ** Triggers *)
(** The statements given to Trigger, and the triggers they create (see C44). *)
Definition trigger_texts (calls : list t_call) : list (option bytes) :=
  flat_map (fun c => match c with TTrigger t => [t] | _ => [] end) calls.
Definition creates (d : dialect) (tb : table_id) (text : option bytes) (g : trigger) : Prop :=
  exists t, text = Some t /\ trigger_info (S (length (trim_space t))) d (trim_space t) = LOk g /\
    g_table g = tb_name tb /\ (g_schema g = [] \/ g_schema g = tb_schema tb).
(** One trigger per name; a new text replaces the old one. *)
Definition add_trigger (l : list trigger) (g : trigger) : list trigger :=
  put g_name (g_name g) g (fun old => mk_trigger (g_schema old) (g_table old) (g_name old) (g_sql g) (g_ignore old)) l.

(** ** The calls considered *)
(** Names are not empty (on SQLite they may be: refuted in C38); a Config
    function does not touch Ignore. *)
Definition plain_call (call : t_call) : Prop :=
  match call with
  | TConstraintCall (CDefine _ n _ _) => n <> []
  | TConstraintCall (CAttr _ (AConfig f)) => forall c, c_ignore (f c) = c_ignore c
  | TIndexCall (IAttr _ (IConfig f)) => forall x, x_ignore (f x) = x_ignore x
  | _ => True
  end.

(** ** Which calls are accepted *)
(** A TColumn, TConstraint or TIndex is the result of an earlier call: the methods
    of the [h]th one come after it ([nc], [nk], [nx]: how many there are). *)
Fixpoint handled (nc nk nx : nat) (calls : list t_call) : Prop :=
  match calls with
  | [] => True
  | TColumn _ :: r => handled (S nc) nk nx r
  | TColumnCall h _ :: r => h < nc /\ handled nc nk nx r
  | TConstraintCall (CAttr h _) :: r => h < nk /\ handled nc nk nx r
  | TConstraintCall _ :: r => handled nc (S nk) nx r
  | TIndexCall (IAttr h _) :: r => h < nx /\ handled nc nk nx r
  | TIndexCall _ :: r => handled nc nk (S nx) r
  | _ :: r => handled nc nk nx r
  end.
(** [columns]: the names of the table's columns that are not ignored. *)
Definition acceptable (d : dialect) (tb : table_id) (columns : list bytes) (call : t_call) : Prop :=
  match call with
  | TColumn n => In n columns
  | TConstraintCall (CDefine _ n _ _) => n <> []
  | TConstraintCall (CExclude n _ _ _ _) => d = DPostgres /\ n <> []
  | TIndexCall (IDefine n _ _) => n <> []
  | TTrigger text => exists g, creates d tb text g
  | _ => True
  end.
(** Calls that neither ignore a column, a constraint or an index nor undo that;
    SQLite does not look at the constraint's name. *)
Definition steady_call (d : dialect) (call : t_call) : Prop :=
  match call with
  | TColumnCall _ TCIgnore => False
  | TColumnCall _ (TCConfig f) => forall l, l_ignore (f l) = l_ignore l
  | TConstraintCall (CDefine _ n _ _) => d = DSQLite -> n <> []
  | TConstraintCall (CAttr _ (AConfig f)) => forall c, c_ignore (f c) = c_ignore c
  | TIndexCall (IAttr _ (IConfig f)) => forall x, x_ignore (f x) = x_ignore x
  | _ => True
  end.
Definition visible_columns (l : list column) : list bytes := map l_name (filter (fun c => negb (l_ignore c)) l).
