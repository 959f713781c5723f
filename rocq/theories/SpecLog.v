(** * SpecLog: what a log of statements shows *)
From Verif Require Import GoBase QuoteModel SprintModel SpecSprint TokenModel EffectModel RenderModel BuildModel FetchModel SpecFetch.

(** Values whose printing calls no method on a nil pointer. *)
Definition plain_values (vs : list gval) : Prop := forall v, In v vs -> has_nil_valuer v = false.
(** A text with these arguments can be interpolated without running out of arguments. *)
Definition enough_args (d : dialect) (text : bytes) (args : list gval) : Prop :=
  d <> DSQLite \/ count_occ N.eq_dec (runes_of text) (R "?") <= length args.

Definition line_end : bytes := [chr 10].
(** One result row: its number, then a line for each column; [show] gives the
    text of a value. *)
Definition row_block (show : gval -> bytes) (names : list bytes) (vs : list gval) (i : nat) : bytes :=
  line_end ++ B "----[ Row " ++ itoa i ++ B " ]----" ++
  concat (map (fun nv => line_end ++ fst nv ++ B ": " ++ show (snd nv)) (combine names vs)).
Fixpoint blocks (show : gval -> bytes) (names : list bytes) (rows : list (list gval)) (i : nat) : bytes :=
  match rows with
  | [] => []
  | vs :: rows => row_block show names vs i ++ blocks show names rows (S i)
  end.
(** The first [limit] rows and, if there are more, how many. *)
Definition results_text (show : gval -> bytes) (names : list bytes) (rows : list (list gval)) (limit : nat) : bytes :=
  blocks show names (firstn limit rows) 1 ++
  (if length rows <=? limit then []
   else line_end ++ B "..." ++ line_end ++ B "(" ++ itoa (length rows - limit) ++ B " more rows)").
