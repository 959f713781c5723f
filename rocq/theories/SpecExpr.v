(** * SpecExpr: what a chain of calls asks for, in pieces *)
From Verif Require Import GoBase QuoteModel SprintModel EffectModel RenderModel SpecQuery BuildModel
  FieldModel ExprModel SpecField.

(** ** CASE *)
Definition as_when (c : case_call) : list (node * node) :=
  match c with CWhen p r => [(p, r)] | _ => [] end.
Definition as_else (c : case_call) : option node := match c with CElse v => Some v | _ => None end.
Definition as_case_alias (c : case_call) : option bytes := match c with CAs a => Some a | _ => None end.

(** The branches in the order of the calls, then the fallback given last. *)
Definition branch (e : option env) (x : list bytes) (b : node * node) : list piece :=
  [T (B " WHEN "); V e x (fst b); T (B " THEN "); V e x (snd b)].
Definition otherwise (e : option env) (x : list bytes) (v : option node) : list piece :=
  match v with
  | None | Some (NRaw GNil) => []                 (* Else(nil): no ELSE, which means NULL *)
  | Some v => [T (B " ELSE "); V e x v]
  end.
Definition case_pieces (e : option env) (x : list bytes) (calls : list case_call) : list piece :=
  flat_map (branch e x) (flat_map as_when calls) ++ otherwise e x (last_of as_else calls) ++ [T (B " END")].

(** ** WITH *)
(** A CTE as asked for: NewCTE or NewRecursiveCTE and the methods called. *)
Record cte_request := mk_request {
  cr_rec : bool; cr_name : bytes; cr_columns : list bytes; cr_query : option node; cr_calls : list cte_call }.
Definition built (r : cte_request) (c : cte_ node) : Prop :=
  exists c0, new_cte (cr_rec r) (cr_name r) (cr_columns r) (cr_query r) = Some c0 /\
    c = fold_left cte_step (cr_calls r) c0.
(** It has a name, a query, and columns: its own or the query's. *)
Definition usable (r : cte_request) : Prop :=
  cr_name r <> [] /\ exists q, cr_query r = Some q /\ (cr_columns r <> [] \/ exists f, has_column q f).

Definition as_mat (k : cte_call) : option bool :=
  match k with KMaterialized => Some true | KNotMaterialized => Some false | KAs _ => None end.
Definition as_cte_alias (k : cte_call) : option bytes := match k with KAs a => Some a | _ => None end.
(** A set operation as a statement of its own is not bracketed once more. *)
Definition statement (q : node) : node := match q with NVQuery _ op qs => NVQuery true op qs | _ => q end.
Definition materialization (d : dialect) (o : option bool) : bytes :=
  match d, o with
  | DPostgres, Some true => B "MATERIALIZED "
  | DPostgres, Some false => B "NOT MATERIALIZED "
  | _, _ => []
  end.
Definition cte_pieces (d : dialect) (r : cte_request) : list piece :=
  match cr_query r with
  | None => []
  | Some q =>
    [T (cr_name r);
     T (match cr_columns r with [] => [] | cs => B " (" ++ join (B ", ") cs ++ B ")" end);
     T (B " AS "); T (materialization d (last_of as_mat (cr_calls r)));
     T (B "("); V None [] (statement q); T (B ")")]
  end.
Definition with_pieces (d : dialect) (rs : list cte_request) : list piece :=
  T (if existsb cr_rec rs then B "WITH RECURSIVE " else B "WITH ")
  :: between (B ", ") (map (cte_pieces d) rs) ++ [T (B " ")].

(** The statement with these CTEs in place of its own. *)
Definition with_ctes (cs : list (cte_ node)) (n : node) : node :=
  match n with
  | NSelect q => NSelect (mk_select (sq_dialect q) (sq_env q) cs (sq_distinct q) (sq_fields q) (sq_distinct_on q)
      (sq_from q) (sq_joins q) (sq_where q) (sq_group q) (sq_having q) (sq_order q) (sq_limit q) (sq_offset q))
  | NInsert q => NInsert (mk_insert (iq_dialect q) (iq_env q) (iq_mapper q) cs (iq_ignore q) (iq_into q)
      (iq_columns q) (iq_rows q) (iq_rowalias q) (iq_colaliases q) (iq_select q) (iq_constraint q)
      (iq_cfields q) (iq_cpred q) (iq_nothing q) (iq_resolution q) (iq_rpred q) (iq_returning q))
  | NUpdate q => NUpdate (mk_update (uq_dialect q) (uq_env q) (uq_mapper q) cs (uq_table q) (uq_from q)
      (uq_joins q) (uq_assigns q) (uq_where q) (uq_order q) (uq_limit q) (uq_offset q) (uq_returning q))
  | NDelete q => NDelete (mk_delete (dq_dialect q) (dq_env q) cs (dq_tables q) (dq_using q) (dq_joins q)
      (dq_where q) (dq_order q) (dq_limit q) (dq_offset q) (dq_returning q))
  | _ => n
  end.
(** A statement that gets as far as its WITH clause: the column mapper of an
    INSERT or UPDATE, which runs first, returns no error. *)
Definition reaches_with (n : node) : Prop :=
  match n with
  | NSelect _ | NDelete _ => True
  | NInsert q => match iq_mapper q with Some (_, true) => False | _ => True end
  | NUpdate q => match uq_mapper q with Some (_, true) => False | _ => True end
  | _ => False
  end.
