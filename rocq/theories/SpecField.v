(** * SpecField: what a field, predicate, assignment or window writes.

    Everything is said in terms of pieces: fixed texts, and values rendered
    where they stand. *)
From Verif Require Import GoBase QuoteModel SprintModel EffectModel RenderModel BuildModel.

Inductive piece :=
| T (text : bytes)
| V (e : option env) (x : list bytes) (n : node).   (* the value's own rendering *)

(** Write the pieces in order; the first that does not succeed ends it. *)
Fixpoint write (d : dialect) (ps : list piece) (s : st) : st * status :=
  match ps with
  | [] => (s, SOk)
  | T b :: rest => write d rest (mk_st (st_out s ++ [KText b]) (st_args s) (st_params s))
  | V e x n :: rest =>
    match append_sql d n e x s with
    | (s', SOk) => write d rest s'
    | r => r
    end
  end.

(** What the caller can see of a call: the text of the buffer, the argument
    slice, the params map and the outcome. *)
Record seen := mk_seen {
  sn_text : bytes; sn_args : list gval; sn_params : list (bytes * list nat); sn_status : status }.
Definition see (d : dialect) (r : st * status) : seen :=
  mk_seen (out_text d (st_out (fst r))) (st_args (fst r)) (st_params (fst r)) (snd r).

(** Rendering [n] does what writing [ps] does, from every state. *)
Definition writes (d : dialect) (n : node) (e : option env) (x : list bytes) (ps : list piece) : Prop :=
  forall s, see d (append_sql d n e x s) = see d (write d ps s).

(** The pieces with a separator between them. *)
Fixpoint between (sep : bytes) (pss : list (list piece)) : list piece :=
  match pss with
  | [] => []
  | [ps] => ps
  | ps :: rest => ps ++ T sep :: between sep rest
  end.

(** A value of a comparison: a query is bracketed, anything else stands as it is. *)
Definition operand (e : option env) (x : list bytes) (n : node) : list piece :=
  if is_query n then [T (B "("); V e x n; T (B ")")] else [V e x n].

(** A function call. *)
Definition call (name : bytes) (args : list (list piece)) : list piece :=
  [T name; T (B "(")] ++ between (B ", ") args ++ [T (B ")")].

(** The last thing of its sort in a list. *)
Fixpoint last_of {A R} (sort : A -> option R) (l : list A) : option R :=
  match l with
  | [] => None
  | a :: rest => match last_of sort rest with Some r => Some r | None => sort a end
  end.
