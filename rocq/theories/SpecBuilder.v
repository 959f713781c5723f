(** * SpecBuilder: queries as values (C28) *)
From Verif Require Import GoBase BuilderModel.

Section Spec.
  Context {E : Type}.
  (** A query as a value: every slice is a list.  [vq_slice f]: the list and the
      step that made it (None: never set). *)
  Definition value := field -> option nat * list E.
  Definition no_value : value := fun _ => (None, []).
  Definition vcall (now : nat) (b : value) (m : @method E) : value :=
    match m with
    | MAppend f [] => b
    | MAppend f xs => upd f (Some now, snd (b f) ++ xs) b
    | MAssign f [] => upd f (None, []) b
    | MAssign f xs => upd f (Some now, xs) b
    | MDeleteFrom x => upd FFromTables (Some now, [x]) b
    end.
  Definition vstep (vs : list value) (s : @step E) : list value :=
    match s with
    | SNew => vs ++ [no_value]
    | SCall i m => vs ++ [vcall (length vs) (nth i vs no_value) m]
    | SShare i f j g => vs ++ [upd f (nth j vs no_value g) (nth i vs no_value)]
    end.
  Definition values (p : list (@step E)) : list value := fold_left vstep p [].

  (** The slice a step appends to, by the step that made it. *)
  Definition appends_to (vs : list value) (s : @step E) : option nat :=
    match s with
    | SCall i (MAppend f (_ :: _)) => fst (nth i vs no_value f)
    | _ => None
    end.
  (** DeleteFrom on a query that already has a table. *)
  Definition replaces_table (vs : list value) (s : @step E) : Prop :=
    match s with
    | SCall i (MDeleteFrom _) => snd (nth i vs no_value FFromTables) <> []
    | _ => False
    end.
  (** Programs that never replace the table, and never append twice to the same
      slice. *)
  Inductive linear : list (@step E) -> list nat -> Prop :=
  | lin_start : linear [] []
  | lin_other : forall p used s, linear p used -> ~ replaces_table (values p) s ->
      appends_to (values p) s = None -> linear (p ++ [s]) used
  | lin_append : forall p used s k, linear p used -> appends_to (values p) s = Some k -> ~ In k used ->
      linear (p ++ [s]) (k :: used).

  (** Programs that never replace the table. *)
  Inductive keeps_tables : list (@step E) -> Prop :=
  | keep_start : keeps_tables []
  | keep_more : forall p s, keeps_tables p -> ~ replaces_table (values p) s -> keeps_tables (p ++ [s]).

  (** Programs that never replace the table, and append only to slices that fill
      their array. *)
  Definition fills_array (h : @heap E) (bs : list builder) (s : @step E) : Prop :=
    match s with
    | SCall i (MAppend f (_ :: _)) => sl_len (nth i bs no_builder f) = length (slots h (nth i bs no_builder f))
    | _ => True
    end.
  Inductive full (zero : E) (extra : nat -> nat -> nat) : list (@step E) -> Prop :=
  | full_start : full zero extra []
  | full_more : forall p s, full zero extra p -> ~ replaces_table (values p) s ->
      fills_array (fst (run zero extra p)) (snd (run zero extra p)) s -> full zero extra (p ++ [s]).

  (** The slice that a method changes, and the elements it then has, given those
      it had. *)
  Definition changes (m : @method E) : field :=
    match m with MAppend f _ | MAssign f _ => f | MDeleteFrom _ => FFromTables end.
  Definition changed (m : @method E) (old : list E) : list E :=
    match m with MAppend _ xs => old ++ xs | MAssign _ xs => xs | MDeleteFrom x => [x] end.

  (** What the last call of its kind set. *)
  Fixpoint last_where (start : option E) (calls : list (@conflict_call E)) : option E :=
    match calls with
    | [] => start
    | CWhere p :: calls' => last_where (Some p) calls'
    | _ :: calls' => last_where start calls'
    end.
  Fixpoint last_update (start : list E) (calls : list (@conflict_call E)) : list E :=
    match calls with
    | [] => start
    | CDoUpdateSet xs :: calls' => last_update xs calls'
    | _ :: calls' => last_update start calls'
    end.
End Spec.
