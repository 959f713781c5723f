(** * BuildModel: the entry points (ToSQL, AppendSQL) and the constructors of
    predicates, CTEs and subqueries. *)
From Verif Require Import GoBase QuoteModel SprintModel TokenModel EffectModel RenderModel.

(** sq.go:21-27: the dialect a dialect string stands for. *)
Definition dialect_of (s : bytes) : dialect :=
  if beqb s (B "sqlite") then DSQLite
  else if beqb s (B "postgres") then DPostgres
  else if beqb s (B "mysql") then DMySQL
  else if beqb s (B "sqlserver") then DSQLServer
  else DOther s.

(** A call [v.AppendSQLExclude(dialect, buf, args, params, env, excluded)]
    (or AppendSQL) on a state: the new state and the outcome. *)
Definition append_sql (d : dialect) (n : node) (e : option env) (x : list bytes) (s : st)
  : st * status :=
  let m := render d n (ctx e x) in (exec d s (fst m), snd m).

(** [q.GetDialect()] ([v.(Query)] only): select_query.go:181, insert_query.go:216,
    update_query.go:221, delete_query.go:197, variadic_query.go:93-98, fmt.go:575.
    A nil first query panics in Go; here it yields "". *)
Fixpoint get_dialect (n : node) : bytes :=
  match n with
  | NSelect q => sq_dialect q
  | NInsert q => iq_dialect q
  | NUpdate q => uq_dialect q
  | NDelete q => dq_dialect q
  | NQueryf dl _ _ => dl
  | NVQuery _ _ (q :: _) => get_dialect q
  | _ => []
  end.

(** What ToSQL returns. *)
Record sql_result := mk_result {
  r_query : bytes; r_args : list gval; r_params : list (bytes * list nat); r_status : status }.

(** sq.go:113-127 [ToSQL]. *)
Definition to_sql_dialect (dname : bytes) (n : node) : dialect :=
  dialect_of (if is_empty dname && is_query n then get_dialect n else dname).
Definition to_sql (dname : bytes) (n : node) : sql_result :=
  let d := to_sql_dialect dname n in
  let r := append_sql d n None [] st0 in
  mk_result (out_text d (st_out (fst r))) (st_args (fst r)) (st_params (fst r)) (snd r).

(** ** Predicates, predicate.go *)
(** predicate.go:130-132 [And], 134-136 [Or]. *)
Definition p_and (ps : list node) : node := NVPred (mk_vpred false [] false ps false).
Definition p_or (ps : list node) : node := NVPred (mk_vpred false [] true ps false).
(** [p.Not()]: predicate.go:41-44, 116-119; boolean_field.go:39-42.
    [None]: not a Predicate of the library (no such method, or nil). *)
Definition p_not (n : node) : option node :=
  match n with
  | NPred a f vs neg => Some (NPred a f vs (negb neg))
  | NVPred p => Some (NVPred (mk_vpred (vp_top p) (vp_alias p) (vp_or p) (vp_preds p) (negb (vp_neg p))))
  | NField k neg fi vs => if k then None else Some (NField k (negb neg) fi vs)
  | _ => None
  end.
(** predicate.go:21-23 [Predicatef]. *)
Definition p_format (f : bytes) (vs : list node) : node := NPred [] f vs false.
(** predicate.go:138, 140. *)
Definition p_is_null (f : node) : node := p_format (B "{} IS NULL") [f].
Definition p_is_not_null (f : node) : node := p_format (B "{} IS NOT NULL") [f].
(** predicate.go:144-156 [cmp]. *)
Definition p_cmp (a b : node) (op : bytes) : node :=
  p_format ((if is_query a then B "({})" else B "{}") ++ B " " ++ op ++ B " "
            ++ (if is_query b then B "({})" else B "{}")) [a; b].
(** predicate.go:158-168. *)
Definition p_eq a b := p_cmp a b (B "=").
Definition p_ne a b := p_cmp a b (B "<>").
Definition p_gt a b := p_cmp a b (B ">").
Definition p_ge a b := p_cmp a b (B ">=").
Definition p_lt a b := p_cmp a b (B "<").
Definition p_le a b := p_cmp a b (B "<=").
(** predicate.go:170-175 [In]. *)
Definition p_in (a b : node) : node :=
  match b with
  | NRowValue _ => p_format (B "{} IN {}") [a; b]
  | _ => p_format (B "{} IN ({})") [a; b]
  end.
(** predicate.go:177, 179. *)
Definition p_exists (q : node) : node := p_format (B "EXISTS ({})") [q].
Definition p_not_exists (q : node) : node := p_format (B "NOT EXISTS ({})") [q].

(** ** CTEs and subqueries *)

(** [GetFetchableFields()]: select_query.go:177, insert_query.go:207-214,
    update_query.go:212-219, delete_query.go:188-195, variadic_query.go:86-91,
    fmt.go:571-573. *)
Inductive fetched := FFields (fs : list node) | FFail | FCrash.
Definition returning_dialect (dl : bytes) : bool := beqb dl (B "postgres") || beqb dl (B "sqlite").
Fixpoint fetchable (n : node) : fetched :=
  match n with
  | NSelect q => FFields (sq_fields q)
  | NInsert q => if returning_dialect (iq_dialect q) then FFields (iq_returning q) else FFail
  | NUpdate q => if returning_dialect (uq_dialect q) then FFields (uq_returning q) else FFail
  | NDelete q => if returning_dialect (dq_dialect q) then FFields (dq_returning q) else FFail
  | NQueryf _ _ _ => FFail
  | NVQuery _ _ [] => FFields []
  | NVQuery _ _ (q :: _) => fetchable q
  | _ => FCrash
  end.
(** cte.go:84-92, subquery.go:38-47: the output name of a field. *)
Definition output_name (f : node) : bytes :=
  if is_empty (get_alias f) then get_name f else get_alias f.

(** cte.go:61-102 [newCTE]; a nil field or query interface inside the query
    crashes ([None]). *)
Definition new_cte (recursive : bool) (name : bytes) (columns : list bytes) (query : option node)
  : option (cte_ node) :=
  let mk err names cache :=
    Some (mk_cte query err recursive (match columns with [] => false | _ => true end)
            name [] names cache None) in
  if is_empty name then mk true columns []
  else match query with
  | None => mk true columns []
  | Some q =>
    match columns with
    | _ :: _ => mk false columns columns
    | [] =>
      match fetchable q with
      | FCrash => None
      | FFail => mk true [] []
      | FFields fs =>
        match fs with
        | [] => mk true [] []
        | _ =>
          if existsb is_nil fs then None     (* simplified: Go may stop earlier at an unnamed field *)
          else if existsb (fun f => is_empty (output_name f)) fs then mk true (map output_name fs) []
          else mk false (map output_name fs) (map output_name fs)
        end
      end
    end
  end.
(** cte.go:104-122 [CTE.As]. *)
Definition cte_as (c : cte_ node) (alias : bytes) : cte_ node :=
  let err := mk_cte (cte_query c) true (cte_rec c) (cte_explicit c) (cte_name c) (cte_alias c)
               (cte_fields c) (cte_cache c) (cte_mat c) in
  if cte_err c then c
  else if is_empty (cte_name c) then err
  else match cte_query c, cte_cache c with
  | Some _, _ :: _ => mk_cte (cte_query c) false (cte_rec c) (cte_explicit c) (cte_name c) alias
                        (cte_fields c) (cte_cache c) (cte_mat c)
  | _, _ => err
  end.
Definition plain_field (table alias name : bytes) : finfo :=
  mk_finfo [] table alias name [] [] [] None None false.
(** cte.go:124-135 [CTE.Field]. *)
Definition cte_field (c : cte_ node) (name : bytes) : node :=
  NCTEField (cte_err c) (cte_cache c) (plain_field (cte_name c) (cte_alias c) name).
(** subquery.go:20-53 [NewSubquery]. *)
Definition new_subquery (alias : bytes) (query : option node) : option (subq_ node) :=
  match query with
  | None => Some (mk_subq None true alias [] [])
  | Some q =>
    match fetchable q with
    | FCrash => None
    | FFail => Some (mk_subq query true alias [] [])
    | FFields [] => Some (mk_subq query true alias [] [])
    | FFields fs =>
      if existsb is_nil fs then None       (* simplified as above *)
      else if existsb (fun f => is_empty (output_name f)) fs
      then Some (mk_subq query true alias (map output_name fs) [])
      else Some (mk_subq query false alias (map output_name fs) (map output_name fs))
    end
  end.
(** subquery.go:76-86 [Subquery.Field]. *)
Definition sub_field (q : subq_ node) (name : bytes) : node :=
  NSubField (sb_err q) (sb_cache q) (plain_field [] (sb_alias q) name).
