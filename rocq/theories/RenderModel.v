(** * RenderModel: expressions, tables and queries and their AppendSQL methods *)
From Verif Require Import GoBase QuoteModel SprintModel TokenModel EffectModel.
Local Open Scope m_scope.

(** The environment map handed to predicate hooks; [None] is the nil map. *)
Definition env := list (bytes * gval).

(** field_info.go:19-31 [FieldInfo] without its Values; [fi_err]: Err != nil. *)
Record finfo := mk_finfo {
  fi_schema : bytes; fi_table : bytes; fi_talias : bytes;
  fi_name : bytes; fi_alias : bytes;
  fi_formats : list (bytes * bytes);
  fi_collation : bytes;
  fi_desc : option bool; fi_nulls : option bool;
  fi_err : bool }.

(** predicate.go:46-54 [VariadicPredicate]. *)
Record vpred_ (T : Type) := mk_vpred {
  vp_top : bool; vp_alias : bytes; vp_or : bool; vp_preds : list T; vp_neg : bool }.
Arguments mk_vpred {T}. Arguments vp_top {T}. Arguments vp_alias {T}.
Arguments vp_or {T}. Arguments vp_preds {T}. Arguments vp_neg {T}.

(** join_table.go:18-22 [JoinTable]; [None] is a nil table. *)
Record join_ (T : Type) := mk_join { jn_type : bytes; jn_table : option T; jn_on : vpred_ T }.
Arguments mk_join {T}. Arguments jn_type {T}. Arguments jn_table {T}. Arguments jn_on {T}.

(** cte.go:10-20 [CTE].  [cte_cache] are the keys of fieldCache. *)
Record cte_ (T : Type) := mk_cte {
  cte_query : option T; cte_err : bool; cte_rec : bool; cte_explicit : bool;
  cte_name : bytes; cte_alias : bytes; cte_fields : list bytes; cte_cache : list bytes;
  cte_mat : option bool }.
Arguments mk_cte {T}. Arguments cte_query {T}. Arguments cte_err {T}. Arguments cte_rec {T}.
Arguments cte_explicit {T}. Arguments cte_name {T}. Arguments cte_alias {T}.
Arguments cte_fields {T}. Arguments cte_cache {T}. Arguments cte_mat {T}.

(** subquery.go:9-16 [Subquery]. *)
Record subq_ (T : Type) := mk_subq {
  sb_query : option T; sb_err : bool; sb_alias : bytes; sb_fields : list bytes; sb_cache : list bytes }.
Arguments mk_subq {T}. Arguments sb_query {T}. Arguments sb_err {T}. Arguments sb_alias {T}.
Arguments sb_fields {T}. Arguments sb_cache {T}.

(** select_query.go:9-33 [SelectQuery]. *)
Record select_ (T : Type) := mk_select {
  sq_dialect : bytes; sq_env : option env; sq_ctes : list (cte_ T);
  sq_distinct : bool; sq_fields : list T; sq_distinct_on : list T;
  sq_from : option T; sq_joins : list (join_ T); sq_where : vpred_ T;
  sq_group : list T; sq_having : vpred_ T; sq_order : list T;
  sq_limit : option Z; sq_offset : option Z }.
Arguments mk_select {T}. Arguments sq_dialect {T}. Arguments sq_env {T}. Arguments sq_ctes {T}.
Arguments sq_distinct {T}. Arguments sq_fields {T}. Arguments sq_distinct_on {T}.
Arguments sq_from {T}. Arguments sq_joins {T}. Arguments sq_where {T}. Arguments sq_group {T}.
Arguments sq_having {T}. Arguments sq_order {T}. Arguments sq_limit {T}. Arguments sq_offset {T}.

(** insert_query.go:9-34 [InsertQuery].  A ColumnMapper is a function that
    calls [Column.Set]; it is modelled by the calls it makes, in order, and
    whether it then returns an error. *)
Record insert_ (T : Type) := mk_insert {
  iq_dialect : bytes; iq_env : option env; iq_mapper : option (list (T * T) * bool);
  iq_ctes : list (cte_ T); iq_ignore : bool; iq_into : option T; iq_columns : list T;
  iq_rows : list (list T); iq_rowalias : bytes; iq_colaliases : list bytes;
  iq_select : option (select_ T);
  iq_constraint : bytes; iq_cfields : list T; iq_cpred : option T; iq_nothing : bool;
  iq_resolution : list (T * T); iq_rpred : vpred_ T; iq_returning : list T }.
Arguments mk_insert {T}. Arguments iq_dialect {T}. Arguments iq_env {T}. Arguments iq_mapper {T}.
Arguments iq_ctes {T}. Arguments iq_ignore {T}. Arguments iq_into {T}. Arguments iq_columns {T}.
Arguments iq_rows {T}. Arguments iq_rowalias {T}. Arguments iq_colaliases {T}. Arguments iq_select {T}.
Arguments iq_constraint {T}. Arguments iq_cfields {T}. Arguments iq_cpred {T}. Arguments iq_nothing {T}.
Arguments iq_resolution {T}. Arguments iq_rpred {T}. Arguments iq_returning {T}.

(** update_query.go:9-32 [UpdateQuery]. *)
Record update_ (T : Type) := mk_update {
  uq_dialect : bytes; uq_env : option env; uq_mapper : option (list (T * T) * bool);
  uq_ctes : list (cte_ T); uq_table : option T; uq_from : option T; uq_joins : list (join_ T);
  uq_assigns : list (T * T); uq_where : vpred_ T; uq_order : list T;
  uq_limit : option Z; uq_offset : option Z; uq_returning : list T }.
Arguments mk_update {T}. Arguments uq_dialect {T}. Arguments uq_env {T}. Arguments uq_mapper {T}.
Arguments uq_ctes {T}. Arguments uq_table {T}. Arguments uq_from {T}. Arguments uq_joins {T}.
Arguments uq_assigns {T}. Arguments uq_where {T}. Arguments uq_order {T}. Arguments uq_limit {T}.
Arguments uq_offset {T}. Arguments uq_returning {T}.

(** delete_query.go:9-29 [DeleteQuery]; [None] in the table list is nil. *)
Record delete_ (T : Type) := mk_delete {
  dq_dialect : bytes; dq_env : option env; dq_ctes : list (cte_ T);
  dq_tables : list (option T); dq_using : option T; dq_joins : list (join_ T);
  dq_where : vpred_ T; dq_order : list T; dq_limit : option Z; dq_offset : option Z;
  dq_returning : list T }.
Arguments mk_delete {T}. Arguments dq_dialect {T}. Arguments dq_env {T}. Arguments dq_ctes {T}.
Arguments dq_tables {T}. Arguments dq_using {T}. Arguments dq_joins {T}. Arguments dq_where {T}.
Arguments dq_order {T}. Arguments dq_limit {T}. Arguments dq_offset {T}. Arguments dq_returning {T}.

(** Applying a function to every component. *)
Definition vpred_map {A C} (f : A -> C) (p : vpred_ A) : vpred_ C :=
  mk_vpred (vp_top p) (vp_alias p) (vp_or p) (map f (vp_preds p)) (vp_neg p).
Definition join_map {A C} (f : A -> C) (j : join_ A) : join_ C :=
  mk_join (jn_type j) (option_map f (jn_table j)) (vpred_map f (jn_on j)).
Definition cte_map {A C} (f : A -> C) (c : cte_ A) : cte_ C :=
  mk_cte (option_map f (cte_query c)) (cte_err c) (cte_rec c) (cte_explicit c) (cte_name c)
    (cte_alias c) (cte_fields c) (cte_cache c) (cte_mat c).
Definition subq_map {A C} (f : A -> C) (q : subq_ A) : subq_ C :=
  mk_subq (option_map f (sb_query q)) (sb_err q) (sb_alias q) (sb_fields q) (sb_cache q).
Definition select_map {A C} (f : A -> C) (q : select_ A) : select_ C :=
  mk_select (sq_dialect q) (sq_env q) (map (cte_map f) (sq_ctes q)) (sq_distinct q)
    (map f (sq_fields q)) (map f (sq_distinct_on q)) (option_map f (sq_from q))
    (map (join_map f) (sq_joins q)) (vpred_map f (sq_where q)) (map f (sq_group q))
    (vpred_map f (sq_having q)) (map f (sq_order q)) (sq_limit q) (sq_offset q).
Definition pair_map {A C} (f : A -> C) (p : A * A) : C * C := (f (fst p), f (snd p)).
Definition mapper_map {A C} (f : A -> C) (m : list (A * A) * bool) : list (C * C) * bool :=
  (map (pair_map f) (fst m), snd m).
Definition insert_map {A C} (f : A -> C) (q : insert_ A) : insert_ C :=
  mk_insert (iq_dialect q) (iq_env q) (option_map (mapper_map f) (iq_mapper q))
    (map (cte_map f) (iq_ctes q)) (iq_ignore q) (option_map f (iq_into q)) (map f (iq_columns q))
    (map (map f) (iq_rows q)) (iq_rowalias q) (iq_colaliases q)
    (option_map (select_map f) (iq_select q)) (iq_constraint q) (map f (iq_cfields q))
    (option_map f (iq_cpred q)) (iq_nothing q) (map (pair_map f) (iq_resolution q))
    (vpred_map f (iq_rpred q)) (map f (iq_returning q)).
Definition update_map {A C} (f : A -> C) (q : update_ A) : update_ C :=
  mk_update (uq_dialect q) (uq_env q) (option_map (mapper_map f) (uq_mapper q))
    (map (cte_map f) (uq_ctes q)) (option_map f (uq_table q)) (option_map f (uq_from q))
    (map (join_map f) (uq_joins q)) (map (pair_map f) (uq_assigns q)) (vpred_map f (uq_where q))
    (map f (uq_order q)) (uq_limit q) (uq_offset q) (map f (uq_returning q)).
Definition delete_map {A C} (f : A -> C) (q : delete_ A) : delete_ C :=
  mk_delete (dq_dialect q) (dq_env q) (map (cte_map f) (dq_ctes q))
    (map (option_map f) (dq_tables q)) (option_map f (dq_using q)) (map (join_map f) (dq_joins q))
    (vpred_map f (dq_where q)) (map f (dq_order q)) (dq_limit q) (dq_offset q)
    (map f (dq_returning q)).

(** What [InjectPredicate] returns: an error, a nil predicate, a predicate. *)
Inductive hookres (T : Type) := HErr | HNil | HPred (p : T).
Arguments HErr {T}. Arguments HNil {T}. Arguments HPred {T} _.

(** A Go value as passed to the query builder.
    Simplifications: user-defined appender types other than tables are not
    modelled; a pointer to an appender is identified with the appender; the
    sub-slice types ([Fields], [Assignments], ...) are constructors of their
    own only where they are used as values. *)
Inductive node :=
| NRaw (v : gval)                                  (* neither appender nor slice; nil is [GNil] *)
| NSlice (vs : list node)                          (* a slice that is exploded, sq.go:151-157 *)
| NParam (name : bytes) (v : node)                 (* param.go NamedParam *)
| NField (keepenv neg : bool) (fi : finfo) (vals : list node)
    (* FieldInfo ([keepenv] = true), CustomField and the typed fields
       ([keepenv] = false); [neg] only for BooleanField, boolean_field.go:27-32 *)
| NLiteral (text alias : bytes)
| NValue (v : node) (alias : bytes)
| NFields (fs : list node)
| NRowValue (vs : list node)
| NRowValues (rows : list (list node))
| NAssign (lhs rhs : node)
| NCase (cases : list (node * node)) (fallback : option node) (alias : bytes)
| NSimpleCase (expr : node) (cases : list (node * node)) (fallback : option node) (alias : bytes)
| NPred (alias format : bytes) (vals : list node) (neg : bool)      (* CustomPredicate *)
| NVPred (p : vpred_ node)
| NTable (schema name alias : bytes) (hook : option (option env -> hookres node))
| NTablef (format : bytes) (vals : list node)
| NCTE (c : cte_ node)
| NCTEField (err : bool) (cache : list bytes) (fi : finfo)
| NSubquery (q : subq_ node)
| NSubField (err : bool) (cache : list bytes) (fi : finfo)
| NJoin (j : join_ node)
| NWindow (partition order : list node) (frame : bytes)
| NQueryf (dialect format : bytes) (vals : list node)
| NVQuery (top : bool) (op : bytes) (qs : list node)
| NSelect (q : select_ node)
| NInsert (q : insert_ node)
| NUpdate (q : update_ node)
| NDelete (q : delete_ node).

(** ** Type tests and small methods *)
Definition is_nil (n : node) : bool := match n with NRaw GNil => true | _ => false end.
Definition is_vpred (n : node) : bool := match n with NVPred _ => true | _ => false end.
Definition is_vquery (n : node) : bool := match n with NVQuery _ _ _ => true | _ => false end.
(** [v.(Query)]. *)
Definition is_query (n : node) : bool :=
  match n with
  | NQueryf _ _ _ | NVQuery _ _ _ | NSelect _ | NInsert _ | NUpdate _ | NDelete _ => true
  | _ => false
  end.
(** [v.(Field)] or [v.(Table)] (fmt.go:101-106).  RowValue has the methods of Field. *)
Definition is_field_or_table (n : node) : bool :=
  match n with
  | NParam _ _ | NField _ _ _ _ | NLiteral _ _ | NValue _ _ | NRowValue _ | NCase _ _ _
  | NSimpleCase _ _ _ _ | NPred _ _ _ _ | NVPred _ | NTable _ _ _ _ | NTablef _ _ | NCTE _
  | NCTEField _ _ _ | NSubquery _ | NSubField _ _ _ => true
  | _ => false
  end.

(** [GetAlias()]; the empty string for values without the method. *)
Fixpoint get_alias (n : node) : bytes :=
  match n with
  | NParam _ v => get_alias v                               (* param.go:23-28 *)
  | NField _ _ fi _ => fi_alias fi
  | NLiteral _ a => a
  | NValue v a => if is_empty a then get_alias v else a     (* custom_field.go:133-141 *)
  | NCase _ _ a | NSimpleCase _ _ _ a => a
  | NPred a _ _ _ => a
  | NVPred p => vp_alias p
  | NTable _ _ a _ => a
  | NCTE c => cte_alias c
  | NCTEField _ _ fi | NSubField _ _ fi => fi_alias fi
  | NSubquery q => sb_alias q
  | _ => []
  end.
(** [GetName()]. *)
Fixpoint get_name (n : node) : bytes :=
  match n with
  | NParam _ v => get_name v                                (* param.go:30-35 *)
  | NField _ _ fi _ => fi_name fi
  | NLiteral t _ => t
  | NTable _ name _ _ => name
  | NCTE c => cte_name c
  | NCTEField _ _ fi | NSubField _ _ fi => fi_name fi
  | _ => []
  end.

(** The value stored in [args] for a value that is not an appender.  A slice
    nested in a slice is bound as a single opaque value. *)
Definition raw_of (n : node) : gval :=
  match n with NRaw v => v | _ => GOther (B "slice") end.

(** The arguments of AppendSQLExclude that vary between calls.  [c_top]:
    Toplevel override (predicate.go:77, cte.go:177, variadic_query.go:43,65);
    [c_name]: the paramName argument of BufferPrintValue. *)
Record rctx := mk_ctx { c_top : option bool; c_name : bytes; c_env : option env; c_excl : list bytes }.
Definition ctx (e : option env) (x : list bytes) : rctx := mk_ctx None [] e x.

Definition runner := rctx -> M.

(** A component of a tree together with its methods: AppendSQL(Exclude) and,
    for tables, InjectPredicate (of which the rendering is all that matters). *)
Record kid := mk_kid { k_node : node; k_run : runner; k_hook : option env -> hookres (node * runner) }.
Definition k_alias (k : kid) : bytes := get_alias (k_node k).
Definition k_pair (k : kid) : node * runner := (k_node k, k_run k).

(** ** BufferPrintf, fmt.go:16-119 *)

(** The format as the loop at 47-113 sees it. *)
Inductive fitem :=
| FText (b : bytes)            (* 52, 57 *)
| FRef (body : bytes)          (* {body}, 63 *)
| FEnd (b : bytes)             (* 117 *)
| FPanic.                      (* format[i+1] out of range, 48 *)

Fixpoint format_items (fuel : nat) (format : bytes) : list fitem :=
  match index_byte "{" format with
  | None => [FEnd format]
  | Some i =>
    match fuel with
    | 0 => [FPanic]                                         (* unreachable *)
    | S f =>
      match nth_error format (S i) with
      | None => [FPanic]
      | Some c =>
        if Ascii.eqb c "{" then
          FText (firstn i format) :: FText (B "{") :: format_items f (skipn (i + 2) format)
        else
          let rest := skipn i format in
          FText (firstn i format) ::
          match index_byte "}" rest with
          | None => [FEnd rest]                             (* 59-61 *)
          | Some j => FRef (firstn (j - 1) (skipn 1 rest)) :: format_items f (skipn (S j) rest)
          end
      end
    end
  end.

(** fmt.go:25-33: names available for reference; the last one wins. *)
Definition value_name (n : node) : option bytes :=
  match n with
  | NParam name _ => Some name
  | NRaw (GNamedArg name _) => Some name
  | _ => None
  end.
Fixpoint values_lookup_from (i : nat) (vals : list node) (m : list (bytes * nat)) : list (bytes * nat) :=
  match vals with
  | [] => m
  | v :: rest => values_lookup_from (S i) rest
                   (match value_name v with Some name => mset name i m | None => m end)
  end.
Definition values_lookup (vals : list node) := values_lookup_from 0 vals [].

(** fmt.go:64-75: split off the modifiers; is there a "nameonly"? *)
Definition ref_name (body : bytes) : bytes :=
  match index_byte ":" body with Some i => firstn i body | None => body end.
Definition ref_nameonly (body : bytes) : lexres bool :=
  match index_byte ":" body with
  | None => LOk false
  | Some i =>
    let mods := skipn (S i) body in
    match lex_modifiers (S (length mods)) mods [] with
    | LOk ms => LOk (existsb (fun m => beqb (fst m) (B "nameonly")) ms)
    | LErr => LErr | LPanic => LPanic | LDiverge => LDiverge
    end
  end.

(** fmt.go:76-99: which value is meant ([None]: error), and whether the name
    is an ordinal. *)
Definition resolve (vals : list node) (running : nat) (name : bytes) : option (nat * bool) :=
  if is_empty name then
    if Nat.leb (length vals) running then None else Some (running, false)
  else
    match atoi name with
    | Some num =>
      if ((num - 1 <? 0) || (Z.of_nat (length vals) <=? num - 1))%Z then None
      else Some (Z.to_nat (num - 1), true)
    | None =>
      match mget name (values_lookup vals) with
      | Some i => Some (i, false)
      | None => None
      end
    end.

Fixpoint run_items (vals : list kid) (e : option env) (x : list bytes)
    (running : nat) (ords : list bytes) (items : list fitem) : M :=
  match items with
  | [] => ret                                               (* unreachable *)
  | FText b :: rest => emit b ;; run_items vals e x running ords rest
  | FEnd b :: _ => act (CDel ords) ;; emit b                (* 114-118 *)
  | FPanic :: _ => crash
  | FRef body :: rest =>
    match ref_nameonly body with
    | LErr => fail
    | LPanic | LDiverge => crash
    | LOk nameonly =>
      let name := ref_name body in
      match resolve (map k_node vals) running name with
      | None => fail
      | Some (i, ordinal) =>
        match nth_error vals i with
        | None => crash                                     (* unreachable *)
        | Some k =>
          (if nameonly && is_field_or_table (k_node k) then emit (get_name (k_node k)) (* 100-107 *)
           else k_run k (mk_ctx None name e x))                              (* 108 *)
          ;; run_items vals e x (if is_empty name then S running else running)
               (if ordinal then ords ++ [name] else ords) rest
        end
      end
    end
  end.

Definition bufprintf (vals : list kid) (e : option env) (x : list bytes) (format : bytes) : M :=
  run_items vals e x 0 [] (format_items (length format) format).

(** ** Predicates: predicate.go:57-114 *)
Definition vpred_run (top or neg : bool) (preds : list (node * runner)) (x : list bytes) : M :=
  match preds with
  | [] => ret
  | [(p, r)] =>
    when neg (emit (B "NOT ")) ;;
    if is_nil p then fail
    else if is_vpred p then
      when (negb top) (emit (B "(")) ;;
      r (mk_ctx (Some true) [] None x) ;;
      when (negb top) (emit (B ")"))
    else r (ctx None x)
  | _ =>
    when neg (emit (B "NOT ")) ;;
    when (negb top) (emit (B "(")) ;;
    sep_by (if or then B " OR " else B " AND ")
      (map (fun pr => if is_nil (fst pr) then fail else snd pr (ctx None x)) preds) ;;
    when (negb top) (emit (B ")"))
  end.

(** ** Column.Set, column.go:45-78, polymorphic in fields and values *)
Section Column.
  Context {F V : Type}.
  Record column := mk_column {
    col_started : bool; col_ended : bool; col_first : bytes;
    col_fields : list F; col_rows : list (list V) }.
  Definition col_init : column := mk_column false false [] [] [].

  (** [rowValues[last] = append(rowValues[last], v)]. *)
  Fixpoint append_last (rows : list (list V)) (v : V) : list (list V) :=
    match rows with
    | [] => []                                  (* unreachable: rowStarted *)
    | [r] => [r ++ [v]]
    | r :: rows' => r :: append_last rows' v
    end.

  (** INSERT mode, column.go:56-77. *)
  Definition col_set (col : column) (name : bytes) (f : F) (v : V) : column :=
    if negb (col_started col) then
      mk_column true (col_ended col) name (col_fields col ++ [f]) (col_rows col ++ [[v]])
    else if beqb name (col_first col) then
      mk_column true true (col_first col) (col_fields col) (col_rows col ++ [[v]])
    else
      mk_column true (col_ended col) (col_first col)
        (if col_ended col then col_fields col else col_fields col ++ [f])
        (append_last (col_rows col) v).

  Definition col_run (calls : list (bytes * F * V)) : column :=
    fold_left (fun col c => col_set col (fst (fst c)) (snd (fst c)) (snd c)) calls col_init.
End Column.
Arguments column : clear implicits.

(** ** The AppendSQL methods.  [rd] is the method of the children. *)
Section Methods.
  Context (d : dialect).

  (** custom_field.go:157-176 [Fields.AppendSQLExclude]. *)
  Definition fields_run (fs : list kid) (e : option env) (x : list bytes) : M :=
    sep_by (B ", ") (map (fun f => k_run f (ctx e x)) fs).

  (** custom_field.go:180-203 [AliasFields.AppendSQLExclude]: env is dropped
      for non-nil fields. *)
  Definition alias_fields_run (fs : list kid) (e : option env) (x : list bytes) : M :=
    sep_by (B ", ")
      (map (fun f =>
         if is_nil (k_node f) then k_run f (ctx e x)
         else k_run f (ctx None x) ;;
              when (negb (is_empty (k_alias f)))
                (emit (B " AS " ++ quote_identifier d (k_alias f)))) fs).

  (** assignment.go:20-41 [Assignment.AppendSQLExclude]. *)
  Definition assign_run (l r : kid) (e : option env) (x : list bytes) : M :=
    k_run l (ctx None x) ;;
    emit (B " = ") ;;
    if is_query (k_node r)
    then emit (B "(") ;; k_run r (ctx e x) ;; emit (B ")")
    else k_run r (ctx e x).
  (** assignment.go:47-59 [Assignments.AppendSQLExclude]: env is dropped. *)
  Definition assigns_run (l : list (kid * kid)) (x : list bytes) : M :=
    sep_by (B ", ") (map (fun a => assign_run (fst a) (snd a) None x) l).

  (** rowvalue.go:10-24 [RowValue.AppendSQLExclude]. *)
  Definition row_run (vs : list runner) (e : option env) (x : list bytes) : M :=
    emit (B "(") ;; sep_by (B ", ") (map (fun r => r (ctx e x)) vs) ;; emit (B ")").
  (** rowvalue.go:40-52 [RowValues.AppendSQL]. *)
  Definition rows_run (rows : list (list runner)) : M :=
    sep_by (B ", ") (map (fun r => row_run r None []) rows).

  (** field_info.go:51-62: choose the format. *)
  Fixpoint pick_formats (formats : list (bytes * bytes)) (dialectf defaultf : option bytes)
    : option bytes * option bytes :=
    match formats with
    | [] => (dialectf, defaultf)
    | (k, f) :: rest =>
      if beqb k (B "default") then pick_formats rest dialectf (Some f)
      else if beqb k (dialect_name d) then pick_formats rest (Some f) defaultf
      else pick_formats rest dialectf defaultf
    end.

  (** field_info.go:72-85: the qualified name. *)
  Definition qualifier (fi : finfo) : bytes :=
    if is_empty (fi_talias fi) then fi_table fi else fi_talias fi.
  Definition excluded (x : list bytes) (q : bytes) : bool :=
    let i := search_strings x q in
    Nat.ltb i (length x) && beqb (nth i x []) q.
  Definition shown_qualifier (x : list bytes) (fi : finfo) : bytes :=
    let q := qualifier fi in
    if negb (is_empty q) && excluded x q then [] else q.

  (** field_info.go:39-105 [FieldInfo.AppendSQLExclude]. *)
  Definition field_run (fi : finfo) (vals : list kid) (e : option env) (x : list bytes) : M :=
    if fi_err fi then fail
    else
      match fi_formats fi with
      | _ :: _ =>
        match pick_formats (fi_formats fi) None None with
        | (_, None) => fail
        | (df, Some def) =>
          bufprintf vals e x (match df with Some f => f | None => def end)
        end
      | [] =>
        let q := shown_qualifier x fi in
        when (negb (is_empty q)) (emit (quote_identifier d q ++ B ".")) ;;
        emit (quote_identifier d (fi_name fi))
      end ;;
      when (negb (is_empty (fi_collation fi)))
        (emit (B " COLLATE ") ;;
         emit (if is_postgres d then B """" ++ escape_quote (fi_collation fi) """" ++ B """"
               else quote_identifier d (fi_collation fi))) ;;
      match fi_desc fi with
      | Some true => emit (B " DESC") | Some false => emit (B " ASC") | None => ret
      end ;;
      match fi_nulls fi with
      | Some true => emit (B " NULLS FIRST") | Some false => emit (B " NULLS LAST") | None => ret
      end.

  (** BufferPrintValue on an sql.NamedArg, fmt.go:122-147. *)
  Definition named_arg_run (name : bytes) (v : gval) : M :=
    if is_postgres d || is_mysql d then fail
    else if is_empty name then fail
    else if existsb trimmable (runes_of name) then fail
    else act (CNamedArg name v).

  (** sq.go:159-192 [explodeSlice]: env is dropped. *)
  Definition explode_run (vs : list kid) (x : list bytes) : M :=
    sep_by (B ", ")
      (map (fun v => match k_node v with
                     | NRaw _ | NSlice _ => act (CBind [] (raw_of (k_node v)))
                     | _ => k_run v (ctx None x)
                     end) vs).

  (** param.go:37-77 [NamedParam.AppendSQLExclude]. *)
  Definition param_run (name : bytes) (v : kid) (x : list bytes) : M :=
    if is_empty name then fail
    else match k_node v with
         | NRaw g => act (CParam name g)
         | NSlice _ => k_run v (ctx None x)                    (* 48-50: explodeSlice *)
         | _ => k_run v (ctx None x)
         end.

  (** case.go:26-53, 101-132: the WHEN ... THEN ... branches, ELSE and END. *)
  Definition case_tail (cases : list (kid * kid)) (fallback : option kid)
      (e : option env) (x : list bytes) : M :=
    seqs (map (fun c => emit (B " WHEN ") ;; k_run (fst c) (ctx e x) ;;
                        emit (B " THEN ") ;; k_run (snd c) (ctx e x)) cases) ;;
    match fallback with
    | None => ret
    | Some f => if is_nil (k_node f) then ret else emit (B " ELSE ") ;; k_run f (ctx e x)
    end ;;
    emit (B " END").

  (** A VariadicPredicate in clause position: [p.Toplevel = true]. *)
  Definition clause_run (p : vpred_ kid) (x : list bytes) : M :=
    vpred_run true (vp_or p) (vp_neg p) (map k_pair (vp_preds p)) x.

  (** " AS alias" after a table. *)
  Definition as_alias (a : bytes) : M :=
    when (negb (is_empty a)) (emit (B " AS " ++ quote_identifier d a)).

  (** join_table.go:73-106 [JoinTable.AppendSQL]. *)
  Definition join_run (j : join_ kid) : M :=
    let ty := if is_empty (jn_type j) then B "JOIN" else jn_type j in
    let right_or_full := beqb ty (B "RIGHT JOIN") || beqb ty (B "FULL JOIN") in
    let none := match vp_preds (jn_on j) with [] => true | _ => false end in
    if none && (beqb ty (B "JOIN") || right_or_full) then fail
    else if is_sqlite d && right_or_full then fail
    else
      emit (ty ++ B " ") ;;
      match jn_table j with
      | None => fail
      | Some t =>
        k_run t (ctx None []) ;;
        when (negb (is_empty (k_alias t)))
          (emit (B " AS ") ;; emit (quote_identifier d (k_alias t))) ;;
        when (negb none) (emit (B " ON ") ;; clause_run (jn_on j) [])
      end.
  (** join_table.go:113-125 [JoinTables.AppendSQL]. *)
  Definition joins_run (js : list (join_ kid)) : M := sep_by (B " ") (map join_run js).

  (** cte.go:150-192: one CTE in a WITH clause. *)
  Definition cte_def_run (c : cte_ kid) : M :=
    if cte_err c then fail
    else if is_empty (cte_name c) then fail
    else
      emit (cte_name c) ;;
      when (cte_explicit c) (emit (B " (" ++ join (B ", ") (cte_fields c) ++ B ")")) ;;
      emit (B " AS ") ;;
      when (is_postgres d)
        match cte_mat c with
        | Some true => emit (B "MATERIALIZED ")
        | Some false => emit (B "NOT MATERIALIZED ")
        | None => ret
        end ;;
      emit (B "(") ;;
      match cte_query c with
      | None => fail
      | Some q => k_run q (mk_ctx (if is_vquery (k_node q) then Some true else None) [] None [])
      end ;;
      emit (B ")").
  (** cte.go:141-196 [CTEs.AppendSQL]. *)
  Definition ctes_run (cs : list (cte_ kid)) : M :=
    emit (if existsb cte_rec cs then B "WITH RECURSIVE " else B "WITH ") ;;
    sep_by (B ", ") (map cte_def_run cs) ;;
    emit (B " ").
  (** The WITH clause of the four kinds of query, e.g. select_query.go:43-48. *)
  Definition with_clause (cs : list (cte_ kid)) : M :=
    match cs with [] => ret | _ => ctes_run cs end.

  (** [env == nil && q.Env != nil], e.g. select_query.go:38-40. *)
  Definition pick_env (outer own : option env) : option env :=
    match outer with None => own | Some _ => outer end.

  (** select_query.go:99-119: the injected predicates in order; [None]: error. *)
  Fixpoint hooks_run (ts : list (option kid)) (e : option env) : option (list (node * runner)) :=
    match ts with
    | [] => Some []
    | t :: rest =>
      let here := match t with Some t => k_hook t e | None => HNil end in
      match here with
      | HErr => None
      | HNil => hooks_run rest e
      | HPred p => match hooks_run rest e with
                   | Some ps => Some (p :: ps)
                   | None => None
                   end
      end
    end.

  (** select_query.go:99-130, delete_query.go:99-121: the WHERE clause with
      injected predicates. *)
  Definition where_run (injected : option (list (node * runner))) (w : vpred_ kid) : M :=
    match injected with
    | None => fail
    | Some [] =>
      match vp_preds w with
      | [] => ret
      | _ => emit (B " WHERE ") ;; clause_run w []
      end
    | Some ps =>
      emit (B " WHERE ") ;;
      vpred_run true false false
        (ps ++ [(NVPred (vpred_map k_node w),
                 fun c => vpred_run (match c_top c with Some b => b | None => vp_top w end)
                            (vp_or w) (vp_neg w) (map k_pair (vp_preds w)) (c_excl c))]) []
    end.

  (** A plain predicate clause, e.g. select_query.go:140-147. *)
  Definition pred_clause (kw : bytes) (p : vpred_ kid) : M :=
    match vp_preds p with [] => ret | _ => emit kw ;; clause_run p [] end.
  (** A field list clause, e.g. select_query.go:132-138. *)
  Definition fields_clause (kw : bytes) (fs : list kid) (e : option env) : M :=
    match fs with [] => ret | _ => emit kw ;; fields_run fs e [] end.
  Definition int_kid (z : Z) : kid :=
    mk_kid (NRaw (GInt z)) (fun c => act (CBind (c_name c) (GInt z))) (fun _ => HNil).
  (** " LIMIT {}" / " OFFSET {}", e.g. select_query.go:157-162; the value is
      rendered by BufferPrintValue ([limit_eq], [offset_eq] in ClauseFacts). *)
  Definition int_clause (format : bytes) (n : option Z) (e : option env) : M :=
    match n with
    | None => ret
    | Some z => bufprintf [int_kid z] e [] format
    end.
  (** " RETURNING " ..., e.g. update_query.go:189-198. *)
  Definition returning_clause (fs : list kid) (e : option env) : M :=
    match fs with
    | [] => ret
    | _ => if negb (is_postgres d) && negb (is_sqlite d) then fail
           else emit (B " RETURNING ") ;; alias_fields_run fs e []
    end.

  (** select_query.go:37-170 [SelectQuery.AppendSQL]. *)
  Definition select_run (q : select_ kid) (e0 : option env) : M :=
    let e := pick_env e0 (sq_env q) in
    with_clause (sq_ctes q) ;;
    emit (B "SELECT ") ;;
    match sq_distinct_on q with
    | _ :: _ =>
      if negb (is_postgres d) then fail
      else if sq_distinct q then fail
      else emit (B "DISTINCT ON (") ;; fields_run (sq_distinct_on q) e [] ;; emit (B ") ")
    | [] => when (sq_distinct q) (emit (B "DISTINCT "))
    end ;;
    match sq_fields q with
    | [] => fail
    | _ => alias_fields_run (sq_fields q) e []
    end ;;
    match sq_from q with
    | None => ret
    | Some t => emit (B " FROM ") ;; k_run t (ctx e []) ;; as_alias (k_alias t)
    end ;;
    match sq_joins q with
    | [] => ret
    | _ => match sq_from q with
           | None => fail
           | Some _ => emit (B " ") ;; joins_run (sq_joins q)
           end
    end ;;
    where_run (hooks_run (sq_from q :: map jn_table (sq_joins q)) e) (sq_where q) ;;
    fields_clause (B " GROUP BY ") (sq_group q) e ;;
    pred_clause (B " HAVING ") (sq_having q) ;;
    fields_clause (B " ORDER BY ") (sq_order q) e ;;
    int_clause (B " LIMIT {}") (sq_limit q) e ;;
    int_clause (B " OFFSET {}") (sq_offset q) e.

  (** insert_query.go:111-117: sqlite needs a WHERE clause in the SELECT.
      (The Go code writes this into the SelectQuery itself; see SpecTouch.v.) *)
  Definition true_kid : kid :=
    mk_kid (NPred [] (B "TRUE") [] false)
      (fun c => bufprintf [] (c_env c) (c_excl c) (B "TRUE")) (fun _ => HNil).
  Definition where_true (q : select_ kid) : select_ kid :=
    let w := sq_where q in
    mk_select (sq_dialect q) (sq_env q) (sq_ctes q) (sq_distinct q) (sq_fields q)
      (sq_distinct_on q) (sq_from q) (sq_joins q)
      (mk_vpred (vp_top w) (vp_alias w) (vp_or w) [true_kid] (vp_neg w))
      (sq_group q) (sq_having q) (sq_order q) (sq_limit q) (sq_offset q).
End Methods.

(** insert_query.go:62-90: the names the INSERT/UPDATE columns must not be
    qualified with. *)
Definition own_qualifier (t : kid) : bytes :=
  if is_empty (k_alias t) then get_name (k_node t) else k_alias t.

Section Methods2.
  Context (d : dialect).

  (** insert_query.go:43-51: the columns and rows after running the mapper;
      [None]: the mapper returned an error. *)
  Definition insert_source (q : insert_ kid)
    : option (list kid * list (list runner)) :=
    match iq_mapper q with
    | None => Some (iq_columns q, map (map k_run) (iq_rows q))
    | Some (_, true) => None
    | Some (calls, false) =>
      let col := col_run (map (fun c => (get_name (k_node (fst c)), fst c, k_run (snd c))) calls) in
      Some (col_fields col, col_rows col)
    end.

  (** insert_query.go:128-166: the ON CONFLICT clause of sqlite and postgres. *)
  Definition conflict_run (q : insert_ kid) (e : option env) (x : list bytes) : M :=
    if is_empty (iq_constraint q)
       && match iq_cfields q with [] => true | _ => false end && negb (iq_nothing q)
    then ret
    else
      emit (B " ON CONFLICT") ;;
      (if negb (is_empty (iq_constraint q)) then
         if negb (is_postgres d) then fail
         else emit (B " ON CONSTRAINT " ++ iq_constraint q)
       else
         match iq_cfields q with
         | [] => ret
         | _ =>
           emit (B " (") ;; fields_run (iq_cfields q) e x ;; emit (B ")") ;;
           match iq_cpred q with
           | None => ret
           | Some p =>
             emit (B " WHERE ") ;;
             k_run p (mk_ctx (if is_vpred (k_node p) then Some true else None) [] e x)
           end
         end) ;;
      match iq_resolution q with
      | [] => emit (B " DO NOTHING")
      | res =>
        if iq_nothing q then emit (B " DO NOTHING")
        else
          emit (B " DO UPDATE SET ") ;;
          assigns_run res x ;;
          pred_clause (B " WHERE ") (iq_rpred q)
      end.

  (** insert_query.go:38-195 [InsertQuery.AppendSQL]. *)
  Definition insert_run (q : insert_ kid) (e0 : option env) : M :=
    let e := pick_env e0 (iq_env q) in
    match insert_source q with
    | None => fail
    | Some (columns, rows) =>
      with_clause d (iq_ctes q) ;;
      (if iq_ignore q then
         if negb (is_mysql d) then fail else emit (B "INSERT IGNORE INTO ")
       else emit (B "INSERT INTO ")) ;;
      match iq_into q with
      | None => fail
      | Some t =>
        let x := [own_qualifier t] in
        k_run t (ctx e []) ;;
        (if is_empty (k_alias t) then ret
         else if is_mysql d then fail
         else emit (B " AS " ++ quote_identifier d (k_alias t))) ;;
        match columns with
        | [] => ret
        | _ => emit (B " (") ;; fields_run columns e x ;; emit (B ")")
        end ;;
        match rows with
        | _ :: _ =>
          emit (B " VALUES ") ;; rows_run rows ;;
          (if is_empty (iq_rowalias q) then ret
           else if negb (is_mysql d) then fail
           else emit (B " AS " ++ iq_rowalias q) ;;
                match iq_colaliases q with
                | [] => ret
                | l => emit (B " (" ++ join (B ", ") l ++ B ")")
                end)
        | [] =>
          match iq_select q with
          | Some s =>
            emit (B " ") ;;
            select_run d
              (if is_sqlite d && match vp_preds (sq_where s) with [] => true | _ => false end
               then where_true s else s) e
          | None => fail
          end
        end ;;
        (if is_sqlite d || is_postgres d then conflict_run q e x
         else if is_mysql d then
           match iq_resolution q with
           | [] => ret
           | res => emit (B " ON DUPLICATE KEY UPDATE ") ;; assigns_run res x
           end
         else ret) ;;
        returning_clause d (iq_returning q) e
      end
    end.

  (** update_query.go:44-51. *)
  Definition update_source (q : update_ kid) : option (list (kid * kid)) :=
    match uq_mapper q with
    | None => Some (uq_assigns q)
    | Some (_, true) => None
    | Some (calls, false) => Some calls       (* column.go:51-54 *)
    end.

  (** update_query.go:36-200 [UpdateQuery.AppendSQL]. *)
  Definition update_run (q : update_ kid) (e0 : option env) : M :=
    let e := pick_env e0 (uq_env q) in
    match update_source q with
    | None => fail
    | Some assigns =>
      with_clause d (uq_ctes q) ;;
      emit (B "UPDATE ") ;;
      match uq_table q with
      | None => fail
      | Some t =>
        let x := [own_qualifier t] in
        k_run t (ctx e []) ;;
        as_alias d (k_alias t) ;;
        match assigns with [] => fail | _ => ret end ;;
        when (negb (is_mysql d)) (emit (B " SET ") ;; assigns_run assigns x) ;;
        match uq_from q with
        | None => ret
        | Some f =>
          if is_mysql d then fail
          else emit (B " FROM ") ;; k_run f (ctx e []) ;; as_alias d (k_alias f)
        end ;;
        match uq_joins q with
        | [] => ret
        | _ =>
          if match uq_from q with None => true | _ => false end && negb (is_mysql d) then fail
          else emit (B " ") ;; joins_run d (uq_joins q)
        end ;;
        when (is_mysql d) (emit (B " SET ") ;; assigns_run assigns []) ;;
        (* 115-144: the injected predicates are computed but not used *)
        match hooks_run (Some t :: uq_from q :: map jn_table (uq_joins q)) e with
        | None => fail
        | Some _ => ret
        end ;;
        pred_clause (B " WHERE ") (uq_where q) ;;
        match uq_order q with
        | [] => ret
        | _ => if negb (is_mysql d) && negb (is_sqlite d) then fail
               else fields_clause (B " ORDER BY ") (uq_order q) e
        end ;;
        match uq_limit q with
        | None => ret
        | _ => if negb (is_mysql d) && negb (is_sqlite d) then fail
               else int_clause (B " LIMIT {}") (uq_limit q) e
        end ;;
        match uq_offset q with
        | None => ret
        | _ => if negb (is_sqlite d) then fail else int_clause (B " OFFSET {}") (uq_offset q) e
        end ;;
        returning_clause d (uq_returning q) e
      end
    end.

  (** delete_query.go:33-176 [DeleteQuery.AppendSQL]. *)
  Definition delete_run (q : delete_ kid) (e0 : option env) : M :=
    let e := pick_env e0 (dq_env q) in
    let multi := match dq_using q with Some _ => true | None => false end
                 || match dq_joins q with [] => false | _ => true end in
    with_clause d (dq_ctes q) ;;
    emit (B "DELETE FROM ") ;;
    match dq_tables q with
    | [] => fail
    | t0 :: _ =>
      if match dq_using q with Some _ => true | None => false end && is_mysql d then
        sep_by (B ", ") (map (fun t => match t with
                                       | None => crash               (* nil.GetAlias() *)
                                       | Some t => emit (own_qualifier t)
                                       end) (dq_tables q))
      else
        match t0 with
        | None => fail
        | Some t => k_run t (ctx e []) ;; as_alias d (k_alias t)
        end
    end ;;
    match dq_using q with
    | None => ret
    | Some t =>
      if is_sqlite d then fail
      else emit (B " USING ") ;; k_run t (ctx e []) ;; as_alias d (k_alias t)
    end ;;
    match dq_joins q with
    | [] => ret
    | _ =>
      if is_sqlite d then fail
      else match dq_using q with
           | None => fail
           | Some _ => emit (B " ") ;; joins_run d (dq_joins q)
           end
    end ;;
    where_run (hooks_run (dq_tables q) e) (dq_where q) ;;
    match dq_order q with
    | [] => ret
    | _ => if negb (is_mysql d) && negb (is_sqlite d) then fail
           else if multi then fail
           else fields_clause (B " ORDER BY ") (dq_order q) e
    end ;;
    match dq_limit q with
    | None => ret
    | _ => if negb (is_mysql d) && negb (is_sqlite d) then fail
           else if multi then fail
           else int_clause (B " LIMIT {}") (dq_limit q) e
    end ;;
    match dq_offset q with
    | None => ret
    | _ => if negb (is_sqlite d) then fail else int_clause (B " OFFSET {}") (dq_offset q) e
    end ;;
    returning_clause d (dq_returning q) e.

  (** variadic_query.go:28-78 [VariadicQuery.AppendSQL]. *)
  Definition vquery_run (top : bool) (op0 : bytes) (qs : list (node * runner)) : M :=
    let op := if is_empty op0 then B "UNION" else op0 in
    match qs with
    | [] => ret
    | [(q, r)] =>
      if is_nil q then fail
      else r (mk_ctx (if is_vquery q then Some top else None) [] None [])
    | _ =>
      when (negb top) (emit (B "(")) ;;
      sep_by (B " " ++ op ++ B " ")
        (map (fun qr => if is_nil (fst qr) then fail
                        else snd qr (mk_ctx (if is_vquery (fst qr) then Some false else None) [] None [])) qs) ;;
      when (negb top) (emit (B ")"))
    end.
End Methods2.

(** BufferPrintValue (fmt.go:121-191) and the AppendSQL / AppendSQLExclude
    methods it dispatches to.  Where the Go code calls a child's method
    directly, the child is an appender, for which BufferPrintValue is the same
    call (or nil, which is tested explicitly). *)
Fixpoint render (d : dialect) (n : node) (c : rctx) {struct n} : M :=
  let mk := fun v =>
    mk_kid v (render d v)
      (fun e' => match v with
                 | NTable _ _ _ (Some h) =>
                   match h e' with
                   | HErr => HErr
                   | HNil => HNil
                   | HPred p => if is_nil p then HNil else HPred (p, render d p)
                   end
                 | _ => HNil
                 end) in
  let e := c_env c in
  let x := c_excl c in
  match n with
  | NRaw (GNamedArg name v) => named_arg_run d name v
  | NRaw v => act (CBind (c_name c) v)
  | NSlice vs => explode_run (map mk vs) x
  | NParam name v => param_run name (mk v) x
  | NField keepenv neg fi vals =>
    when neg (emit (B "NOT ")) ;;
    field_run d fi (map mk vals) (if keepenv then e else None) x
  | NLiteral text _ => emit text                                  (* custom_field.go:109-112 *)
  | NValue v _ => render d v (ctx e x)                                  (* custom_field.go:145-147 *)
  | NFields fs => fields_run (map mk fs) e x
  | NRowValue vs => row_run (map (render d) vs) e x
  | NRowValues rows => rows_run (map (map (render d)) rows)
  | NAssign l r => assign_run (mk l) (mk r) e x
  | NCase cases fallback _ =>                                     (* case.go:26-53 *)
    emit (B "CASE") ;;
    match cases with [] => fail | _ => ret end ;;
    case_tail (map (pair_map mk) cases) (option_map mk fallback) e x
  | NSimpleCase expr cases fallback _ =>                          (* case.go:101-132 *)
    emit (B "CASE ") ;;
    match cases with [] => fail | _ => ret end ;;
    render d expr (ctx e x) ;;
    case_tail (map (pair_map mk) cases) (option_map mk fallback) e x
  | NPred _ format vals neg =>                                    (* predicate.go:33-38 *)
    when neg (emit (B "NOT ")) ;;
    bufprintf (map mk vals) e x format
  | NVPred p =>
    vpred_run (match c_top c with Some b => b | None => vp_top p end) (vp_or p) (vp_neg p)
      (map (fun v => (v, render d v)) (vp_preds p)) x
  | NTable schema name _ _ =>                                     (* table_info.go:22-28 *)
    when (negb (is_empty schema)) (emit (quote_identifier d schema ++ B ".")) ;;
    emit (quote_identifier d name)
  | NTablef format vals =>                                        (* fmt.go:535-537 *)
    bufprintf (map mk vals) e [] format
  | NCTE ct =>                                                    (* cte.go:28-37 *)
    if cte_err ct then fail
    else if is_empty (cte_name ct) then fail
    else emit (cte_name ct)
  | NCTEField _ cache fi =>                                       (* cte.go:210-224 *)
    if existsb (beqb (fi_name fi)) cache then field_run d fi [] None x else fail
  | NSubquery q =>                                                (* subquery.go:57-71 *)
    if sb_err q then fail
    else
      emit (B "(") ;;
      match sb_query q with
      | None => crash
      | Some q => render d q (ctx None [])
      end ;;
      emit (B ")") ;;
      when (is_empty (sb_alias q) && (is_postgres d || is_mysql d)) fail
  | NSubField _ cache fi =>                                       (* subquery.go:98-110 *)
    if is_empty (fi_talias fi) && (is_postgres d || is_mysql d) then fail
    else if existsb (beqb (fi_name fi)) cache then field_run d fi [] None x else fail
  | NJoin j => join_run d (join_map mk j)
  | NWindow partition order frame =>                              (* window.go:13-38 *)
    let p := match partition with [] => false | _ => true end in
    let o := match order with [] => false | _ => true end in
    emit (B "(") ;;
    when p (emit (B "PARTITION BY ") ;;
            ignore_err (fields_run (map mk partition) None [])) ;;
    when o (when p (emit (B " ")) ;; emit (B "ORDER BY ") ;;
            ignore_err (fields_run (map mk order) None [])) ;;
    when (negb (is_empty frame)) (when (p || o) (emit (B " ")) ;; emit frame) ;;
    emit (B ")")
  | NQueryf _ format vals =>                                      (* fmt.go:561-563 *)
    bufprintf (map mk vals) e [] format
  | NVQuery top op qs =>
    vquery_run (match c_top c with Some b => b | None => top end) op (map (fun v => (v, render d v)) qs)
  | NSelect q => select_run d (select_map mk q) e
  | NInsert q =>
    insert_run d (insert_map mk q) e
  | NUpdate q => update_run d (update_map mk q) e
  | NDelete q => delete_run d (delete_map mk q) e
  end.
