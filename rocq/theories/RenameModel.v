(** * RenameModel: the command that renames tables *)
From Verif Require Import GoBase QuoteModel EffectModel CacheModel UpsertModel DdlModel.
Local Open Scope m_scope.

(** table.go:874-881 *)
Record rename_table := mk_rename_table {
  rt_if_exists : bool; rt_schemas : list bytes; rt_names : list bytes;
  rt_to_schemas : list bytes; rt_to_names : list bytes; rt_ignore : bool }.
(** [xs[0]], or [xs[i]] once the first [i] elements have been passed: it panics
    when there is none. *)
Definition at_head (xs : list bytes) (k : bytes -> M) : M := match xs with x :: _ => k x | [] => crash end.
(** table.go:887,889,894,911: a schema and a dot, unless it is empty *)
Definition dotted (d : dialect) (sc : bytes) : M := when (negb (is_empty sc)) (emit (quote_identifier d sc ++ B ".")).
(** table.go:892-904: the loop over the schemas; the other slices are indexed
    with the loop variable. *)
Fixpoint rename_list (d : dialect) (first : bool) (schemas names to_schemas to_names : list bytes) : M :=
  match schemas with
  | [] => ret
  | sc :: schemas' =>
    emit (if first then [] else B ", ") ;;
    dotted d sc ;;
    at_head names (fun n => emit (quote_identifier d n ++ B " RENAME TO ")) ;;
    at_head to_schemas (dotted d) ;;
    at_head to_names (fun n => emit (quote_identifier d n)) ;;
    rename_list d false schemas' (tl names) (tl to_schemas) (tl to_names)
  end.
(** table.go:883-919 *)
Definition rename_table_sql (d : dialect) (c : rename_table) : M :=
  if rt_ignore c then ret
  else if Nat.ltb 1 (length (rt_names c)) && negb (is_mysql d) then fail
  else if is_mysql d then
    emit (B "RENAME TABLE ") ;;
    rename_list d true (rt_schemas c) (rt_names c) (rt_to_schemas c) (rt_to_names c)
  else
    emit (B "ALTER TABLE ") ;;
    when (rt_if_exists c) (if is_postgres d then emit (B "IF EXISTS ") else fail) ;;
    at_head (rt_schemas c) (dotted d) ;;
    at_head (rt_names c) (fun n => at_head (rt_to_names c) (fun t =>
      emit (quote_identifier d n ++ B " RENAME TO " ++ quote_identifier d t))).
