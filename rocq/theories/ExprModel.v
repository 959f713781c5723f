(** * ExprModel: the calls that build CASE expressions, CTEs and their columns *)
From Verif Require Import GoBase QuoteModel SprintModel EffectModel RenderModel BuildModel FieldModel.

(** ** CASE, case.go *)

(** 59-66 [CaseWhen]. *)
Definition case_when (condition result : node) : node := NCase [(condition, result)] None [].
(** 139 [Case]. *)
Definition case_of (f : node) : node := NSimpleCase f [] None [].
(** The methods: When 68-74 and 141-147, Else 76-79 and 149-152, As 54-57 and
    134-137.  The slices of two derived chains may share memory; see
    BuilderModel.v for that. *)
Inductive case_call :=
| CWhen (condition result : node) | CElse (fallback : node) | CAs (alias : bytes).
Definition case_step (n : node) (c : case_call) : node :=
  match n with
  | NCase cases fallback alias =>
    match c with
    | CWhen p r => NCase (cases ++ [(p, r)]) fallback alias
    | CElse f => NCase cases (Some f) alias
    | CAs a => NCase cases fallback a
    end
  | NSimpleCase expr cases fallback alias =>
    match c with
    | CWhen p r => NSimpleCase expr (cases ++ [(p, r)]) fallback alias
    | CElse f => NSimpleCase expr cases (Some f) alias
    | CAs a => NSimpleCase expr cases fallback a
    end
  | _ => n                                                   (* no such method *)
  end.

(** ** CTEs, cte.go *)

(** 47-51 [Materialized], 53-57 [NotMaterialized]; 104-122 [As]. *)
Inductive cte_call := KAs (alias : bytes) | KMaterialized | KNotMaterialized.
Definition cte_step (c : cte_ node) (k : cte_call) : cte_ node :=
  match k with
  | KAs alias => cte_as c alias
  | KMaterialized => mk_cte (cte_query c) (cte_err c) (cte_rec c) (cte_explicit c) (cte_name c)
                       (cte_alias c) (cte_fields c) (cte_cache c) (Some true)
  | KNotMaterialized => mk_cte (cte_query c) (cte_err c) (cte_rec c) (cte_explicit c) (cte_name c)
                          (cte_alias c) (cte_fields c) (cte_cache c) (Some false)
  end.

(** ** Columns of CTEs and subqueries *)

(** As, Asc, Desc, NullsLast, NullsFirst: cte.go:226-253, subquery.go:115-142.
    (There is no Collate: it leaves the field as it is here.) *)
Definition derived_modify (n : node) (m : modifier) : node :=
  match m, n with
  | MCollate _, _ => n
  | _, NCTEField err cache fi => NCTEField err cache (modify_info m fi)
  | _, NSubField err cache fi => NSubField err cache (modify_info m fi)
  | _, _ => n
  end.
