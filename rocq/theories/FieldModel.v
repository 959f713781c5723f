(** * FieldModel: constructors and methods of fields, assignments, windows and
    aggregate functions *)
From Verif Require Import GoBase QuoteModel SprintModel EffectModel RenderModel BuildModel.

(** ** Fields *)

(** NewNumberField number_field.go:21-28, NewStringField string_field.go:19-26,
    NewTimeField time_field.go:22-29, NewBooleanField boolean_field.go:14-21,
    NewBlobField blob_field.go:11-18, NewJSONField json_field.go:9-16,
    NewUUIDField uuid_field.go:9-16, NewCustomField custom_field.go:14-21: the
    eight bodies are the same.  The TableInfo argument is passed by its three
    strings (table_info.go:12-16). *)
Definition new_field (name tschema tname talias : bytes) : node :=
  NField false false (mk_finfo tschema tname talias name [] [] [] None None false) [].
(** NumberFieldf number_field.go:30-35, StringFieldf string_field.go:28-33,
    TimeFieldf time_field.go:31-36, Fieldf custom_field.go:31-36. *)
Definition fieldf (format : bytes) (values : list node) : node :=
  NField false false (mk_finfo [] [] [] [] [] [(B "default", format)] [] None None false) values.
(** FieldfDialect custom_field.go:38-47: the map is given by its entries in the
    order in which the loop visits them (an arbitrary order of distinct keys). *)
Definition fieldf_dialect (formats : list (bytes * bytes)) (values : list node) : node :=
  NField false false (mk_finfo [] [] [] [] [] formats [] None None false) values.

(** The methods that return a changed copy of the field.
    As: number_field.go:37-40, string_field.go:35-38, time_field.go:38-41,
    boolean_field.go:34-37, blob_field.go:28-31, json_field.go:28-31,
    uuid_field.go:28-31, custom_field.go:49-52;
    Asc, Desc, NullsLast, NullsFirst: number_field.go:42-64, string_field.go:45-67,
    time_field.go:43-65, boolean_field.go:44-66, blob_field.go:33-55,
    json_field.go:33-55, custom_field.go:54-76 (UUIDField has none);
    Collate: string_field.go:40-43 (StringField only). *)
Inductive modifier :=
| MAs (alias : bytes) | MAsc | MDesc | MNullsFirst | MNullsLast | MCollate (collation : bytes).
Definition modify_info (m : modifier) (fi : finfo) : finfo :=
  match fi with
  | mk_finfo s t ta n al fs co de nu er =>
    match m with
    | MAs a => mk_finfo s t ta n a fs co de nu er
    | MAsc => mk_finfo s t ta n al fs co (Some false) nu er
    | MDesc => mk_finfo s t ta n al fs co (Some true) nu er
    | MNullsLast => mk_finfo s t ta n al fs co de (Some false) er
    | MNullsFirst => mk_finfo s t ta n al fs co de (Some true) er
    | MCollate c => mk_finfo s t ta n al fs c de nu er
    end
  end.
Definition modify (n : node) (m : modifier) : node :=
  match n with
  | NField k neg fi vs => NField k neg (modify_info m fi) vs
  | _ => n                                                   (* no such method *)
  end.

(** LikeString, ILikeString string_field.go:83-85.  The other comparison methods
    (IsNull, IsNotNull, In, Eq, Ne, Gt, Ge, Lt, Le and the typed variants EqInt,
    EqString, ...: number_field.go:66-118, string_field.go:69-81,
    time_field.go:67-95, boolean_field.go:68-80, blob_field.go:57-59,
    custom_field.go:78-94, cte.go:255-271, subquery.go:144-160,
    rowvalue.go:34-36) call the function of that name in predicate.go. *)
Definition like_string (f : node) (v : bytes) : node := p_format (B "{} LIKE {}") [f; NRaw (GString v)].
Definition ilike_string (f : node) (v : bytes) : node := p_format (B "{} ILIKE {}") [f; NRaw (GString v)].

(** ** Assignments, assignment.go *)

(** Assign 16-18; the Set methods (number_field.go:120-126, string_field.go:87-89,
    time_field.go:97-99, boolean_field.go:80-82, blob_field.go:61-63) call it. *)
Definition assign (lhs rhs : node) : node := NAssign lhs rhs.
(** Literal custom_field.go:112-114. *)
Definition literal (text : bytes) : node := NLiteral text [].
(** 62-65 [AssignExcluded], 68-71 [AssignAlias], 73-76 [AssignSelf], 78-81 [AssignValues]. *)
Definition assign_excluded (f : node) : node :=
  assign (literal (get_name f)) (literal (B "EXCLUDED." ++ get_name f)).
Definition assign_alias (f : node) (alias : bytes) : node :=
  assign (literal (get_name f)) (literal (alias ++ B "." ++ get_name f)).
Definition assign_self (f : node) : node :=
  assign (literal (get_name f)) (literal (get_name f)).
Definition assign_values (f : node) : node :=
  assign (literal (get_name f)) (literal (B "VALUES(" ++ get_name f ++ B ")")).

(** ** Windows, window.go *)

(** 40-46 [PartitionBy], [OrderBy]; the zero value is Window{}. *)
Definition window0 : node := NWindow [] [] [].
Definition partition_by (fs : list node) : node := NWindow fs [] [].
Definition order_by (fs : list node) : node := NWindow [] fs [].
(** The methods 48-61. *)
Inductive wmod := WPartitionBy (fs : list node) | WOrderBy (fs : list node) | WFrame (frame : bytes).
Definition w_modify (w : node) (m : wmod) : node :=
  match w with
  | NWindow p o f =>
    match m with
    | WPartitionBy fs => NWindow fs o f
    | WOrderBy fs => NWindow p fs f
    | WFrame frame => NWindow p o frame
    end
  | _ => w                                                   (* no such method *)
  end.

(** 63-129. *)
Definition count_over (f w : node) : node := fieldf (B "COUNT({}) OVER {}") [f; w].
Definition count_all_over (w : node) : node := fieldf (B "COUNT(*) OVER {}") [w].
Definition sum_over (f w : node) : node := fieldf (B "SUM({}) OVER {}") [f; w].
Definition avg_over (f w : node) : node := fieldf (B "AVG({}) OVER {}") [f; w].
Definition min_over (f w : node) : node := fieldf (B "MIN({}) OVER {}") [f; w].
Definition max_over (f w : node) : node := fieldf (B "MAX({}) OVER {}") [f; w].
Definition row_number_over (w : node) : node := fieldf (B "ROW_NUMBER() OVER {}") [w].
Definition rank_over (w : node) : node := fieldf (B "RANK() OVER {}") [w].
Definition dense_rank_over (w : node) : node := fieldf (B "DENSE_RANK() OVER {}") [w].
Definition percent_rank_over (w : node) : node := fieldf (B "PERCENT_RANK() OVER {}") [w].
Definition cume_dist_over (w : node) : node := fieldf (B "CUME_DIST() OVER {}") [w].
Definition lead_over (f : node) (offset : Z) (fallback w : node) : node :=
  fieldf (B "LEAD({}, {}, {}) OVER {}") [f; NRaw (GInt offset); fallback; w].
Definition lag_over (f : node) (offset : Z) (fallback w : node) : node :=
  fieldf (B "LAG({}, {}, {}) OVER {}") [f; NRaw (GInt offset); fallback; w].
Definition ntile_over (n : Z) (w : node) : node := fieldf (B "NTILE({}) OVER {}") [NRaw (GInt n); w].
Definition first_value_over (f w : node) : node := fieldf (B "FIRST_VALUE({}) OVER {}") [f; w].
Definition last_value_over (f w : node) : node := fieldf (B "LAST_VALUE({}) OVER {}") [f; w].
Definition nth_value_over (f : node) (n : Z) (w : node) : node :=
  fieldf (B "NTH_VALUE({}, {}) OVER {}") [f; NRaw (GInt n); w].
(** 131-141. *)
Definition count (f : node) : node := fieldf (B "COUNT({})") [f].
Definition count_all : node := fieldf (B "COUNT(*)") [].
Definition sum (f : node) : node := fieldf (B "SUM({})") [f].
Definition avg (f : node) : node := fieldf (B "AVG({})") [f].
Definition min (f : node) : node := fieldf (B "MIN({})") [f].
Definition max (f : node) : node := fieldf (B "MAX({})") [f].
