(** * SpecTouch: what rendering leaves behind in the statement it renders.

    AppendSQL methods have value receivers and write only to the buffer, the
    argument slice and the parameter map -- with one exception: an INSERT
    holds its SELECT by pointer (insert_query.go:24) and on sqlite writes a
    WHERE clause into it (insert_query.go:115-117).  The pointer is shared by
    every copy of the INSERT, so the write is still there afterwards. *)
From Verif Require Import GoBase QuoteModel SprintModel TokenModel EffectModel RenderModel BuildModel SpecSim.

(** insert_query.go:95-118: the write one INSERT makes on reaching its SELECT
    ([None]: it writes nothing).  The rows a ColumnMapper supplies
    (insert_query.go:42-50) also prevent it; [touched] does not depend on this. *)
Definition insert_write (d : dialect) (q : insert_ node) : option (insert_ node) :=
  match iq_rows q, iq_select q with
  | [], Some s =>
    if is_sqlite d && match vp_preds (sq_where s) with [] => true | _ => false end
    then Some (with_source q (filled_select s))
    else None
  | _, _ => None
  end.

(** [touched n n']: [n'] is [n] after such writes at some, all or none of the
    INSERT ... SELECTs anywhere inside it.  (A rendering that fails stops
    before it reaches some of them; [touched] allows any subset.) *)
Definition touched : node -> node -> Prop := gsim true eq.

(** What the statement can be after a rendering in dialect [d]. *)
Inductive after (d : dialect) (n : node) : node -> Prop :=
| after_nothing : after d n n
| after_writes n' : d = DSQLite -> touched n n' -> after d n n'.

(** A statement rendered again and again, each time with the dialect named:
    the dialects and what each rendering returned. *)
Inductive history : node -> list (bytes * sql_result) -> Prop :=
| hist_nil n : history n []
| hist_cons dname n n' l :
    after (to_sql_dialect dname n) n n' -> history n' l ->
    history n ((dname, to_sql dname n) :: l).
