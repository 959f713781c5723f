(** * InlineModel: SQL with its arguments written into it, as the ddl package
    makes it (expressions, index columns, the queries of views) *)
From Verif Require Import GoBase QuoteModel SprintModel TokenModel EffectModel RenderModel BuildModel.

(** The common pattern of t.go:92-103, t.go:571-581 and v.go:42-52: append to an
    empty buffer with an empty map and no env; if there are arguments, Sprintf.
    Simplification: the pooled buffer and argument slice are fresh (C75). *)
Definition inline (d : dialect) (n : node) (x : list bytes) : outcome bytes :=
  let r := append_sql d n None x st0 in
  let text := out_text d (st_out (fst r)) in
  match snd r with
  | SErr => Err (B "AppendSQL")
  | SPanic => Panic
  | SOk => match st_args (fst r) with
           | [] => Ok text
           | args => sprintf d text args
           end
  end.

(** t.go:83-104 [sprintf].  BufferPrintf is called with the format and values as
    by a CustomPredicate (predicate.go:33-38). *)
Definition ddl_sprintf (d : dialect) (format : bytes) (values : list node) (excluded : list bytes) : outcome bytes :=
  inline d (NPred [] format values false) excluded.

(** v.go:30-54 [SetQuery]: the text of the view. *)
Definition view_text (d : dialect) (query : node) : outcome bytes := inline d query [].

(** t.go:550-590 [getColumnNamesAndExprs]: the pairs (column name, expression);
    [None] is a nil field. *)
Fixpoint names_and_exprs (d : dialect) (table_name : bytes) (fields : list (option node)) (dont_wrap : bool)
  : outcome (list (bytes * bytes)) :=
  match fields with
  | [] => Ok []
  | None :: _ => Err (B "field is nil")                              (* 561-563 *)
  | Some f :: rest =>
    let this : outcome (bytes * bytes) :=
      match f with
      | NLiteral text _ => Ok ([], text)                             (* 566-567 *)
      | _ =>
        if is_empty (get_name f) then                                (* 568-585 *)
          match inline d f [table_name] with
          | Ok e => Ok ([], if dont_wrap then e else B "(" ++ e ++ B ")")
          | Err e => Err e
          | Panic => Panic
          end
        else Ok (get_name f, [])
      end in
    match this with
    | Ok p => match names_and_exprs d table_name rest dont_wrap with
              | Ok l => Ok (p :: l)
              | Err e => Err e
              | Panic => Panic
              end
    | Err e => Err e
    | Panic => Panic
    end
  end.
