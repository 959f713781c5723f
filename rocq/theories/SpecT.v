(** * SpecT: what the calls of a DDL method should do to the columns *)
From Verif Require Import GoBase QuoteModel UpsertModel DdlModel LoadModel.

Section Numeric.
  Context (numeric : bytes -> bool).
  (** A default value that can be written without brackets: a string literal, one
      of five keywords, a number. *)
  Definition quoted_text (s : bytes) : Prop := exists a, s = B "'" ++ a ++ B "'".
  Definition bracketed (s : bytes) : Prop := exists a, s = B "(" ++ a ++ B ")".
  Definition keywords : list bytes := [B "TRUE"; B "FALSE"; B "CURRENT_DATE"; B "CURRENT_TIME"; B "CURRENT_TIMESTAMP"].
  Definition constant_text (s : bytes) : Prop :=
    quoted_text s \/ (exists w, In w keywords /\ equal_fold s w = true) \/ numeric s = true.
  Definition null_text (s : bytes) : Prop := equal_fold s (B "NULL") = true.

  (** The column [l] of table [tb] after one call on it, field by field. *)
  Definition after_call (d : dialect) (tb : table_id) (c : t_column_call) (l : column) : column :=
    match c with
    | TCConfig f =>
      mk_column (tb_schema tb) (tb_name tb) (l_name l) (l_type (f l)) (l_identity (f l)) (l_autoincrement (f l))
        (l_not_null (f l)) (l_unique (f l)) (l_primary_key (f l)) (l_on_update (f l)) (l_generated (f l))
        (l_stored (f l)) (l_collation (f l)) (l_default (f l)) (l_ignore (f l))
    | _ =>
      mk_column (l_schema l) (l_table l) (l_name l)
        (match c with TCType v => v | _ => l_type l end)
        (match c, d with
         | TCIdentity, DPostgres => B "BY DEFAULT AS IDENTITY"
         | TCAlwaysIdentity, DPostgres => B "ALWAYS AS IDENTITY"
         | _, _ => l_identity l
         end)
        (match c, d with TCAutoIncrement, DMySQL | TCAutoincrement, DSQLite => true | _, _ => l_autoincrement l end)
        (match c with TCNotNull => true | _ => l_not_null l end)
        (l_unique l) (l_primary_key l)
        (match c, d with TCOnUpdate, DMySQL => true | _, _ => l_on_update l end)
        (match c with TCGenerated v => v | _ => l_generated l end)
        (match c with TCStored => true | _ => l_stored l end)
        (match c with TCCollate v => v | _ => l_collation l end)
        (match c with TCDefault v => t_default numeric d v | TCDefaultExpr v => match d with DPostgres => v | _ => B "(" ++ v ++ B ")" end | _ => l_default l end)
        (match c with TCIgnore => true | _ => l_ignore l end)
    end.
  (** The names given to the Column calls so far are [hs]: the calls made on the
      TColumns of column [n], in order. *)
  Fixpoint calls_on (hs : list bytes) (n : bytes) (calls : list t_call) : list t_column_call :=
    match calls with
    | [] => []
    | TColumn m :: r => calls_on (hs ++ [m]) n r
    | TColumnCall h c :: r =>
      (match nth_error hs h with Some m => if beqb m n then [c] else [] | None => [] end) ++ calls_on hs n r
    | _ :: r => calls_on hs n r
    end.
  Definition asked_columns (calls : list t_call) : list bytes :=
    flat_map (fun c => match c with TColumn n => [n] | _ => [] end) calls.
  (** A Config function that does not bring back an ignored column. *)
  Definition keeps_ignored (call : t_call) : Prop :=
    match call with
    | TColumnCall _ (TCConfig f) => forall l, l_ignore l = true -> l_ignore (f l) = true
    | _ => True
    end.
  (** The column after all the calls on its TColumns. *)
  Definition after_calls (d : dialect) (tb : table_id) (calls : list t_call) (l : column) : column :=
    fold_left (fun l c => after_call d tb c l) (calls_on [] (l_name l) calls) l.
End Numeric.
