(** * BuilderModel: queries derived from queries (the builder methods of *_query_{sqlite,postgres,mysql}.go)

    A query value holds slices.  Methods have value receivers and return the
    changed copy, but [append] writes into the shared array when it has spare
    capacity.  The model keeps a heap of arrays. *)
From Verif Require Import GoBase.

Section Heap.
  Context {E : Type} (zero : E).
  (** An array is its slots; their number is the capacity. *)
  Definition heap := list (list E).
  (** All slices start at slot 0.  No array: nil. *)
  Record slice := mk_slice { sl_array : option nat; sl_len : nat }.
  Definition nil_slice : slice := mk_slice None 0.
  Definition slots (h : heap) (s : slice) : list E :=
    match sl_array s with Some a => nth a h [] | None => [] end.
  (** The elements of a slice. *)
  Definition contents (h : heap) (s : slice) : list E := firstn (sl_len s) (slots h s).
  Definition alloc (h : heap) (array : list E) (len : nat) : heap * slice :=
    (h ++ [array], mk_slice (Some (length h)) len).

  (** Go's [append(s, xs...)].  [extra cap n]: the spare slots of the array
      allocated when an array of capacity [cap] must grow to [n] elements; Go's
      growslice is one such function. *)
  Definition go_append (extra : nat -> nat -> nat) (h : heap) (s : slice) (xs : list E) : heap * slice :=
    match xs with
    | [] => (h, s)
    | _ =>
      let n := sl_len s + length xs in
      let cap := length (slots h s) in
      match sl_array s with
      | Some a =>
        if Nat.leb n cap
        then (list_set h a (firstn (sl_len s) (slots h s) ++ xs ++ skipn n (slots h s)), mk_slice (Some a) n)
        else alloc h (contents h s ++ xs ++ repeat zero (extra cap n)) n
      | None => alloc h (xs ++ repeat zero (extra 0 n)) n
      end
    end.
  (** The slice of the arguments of a variadic call [f(x1, ..., xn)]. *)
  Definition variadic (h : heap) (xs : list E) : heap * slice :=
    match xs with [] => (h, nil_slice) | _ => alloc h xs (length xs) end.

  (** The slice fields of SelectQuery, InsertQuery, UpdateQuery, DeleteQuery
      (select_query.go:18-41, insert_query.go:11-40, update_query.go:9-32,
      delete_query.go:9-30), PredicateCases, SimpleCases (case.go) and
      VariadicPredicate. *)
  Inductive field :=
  | FCTEs | FSelectFields | FDistinctOn | FJoinTables | FWhere | FGroupBy | FHaving | FOrderBy | FReturning
  | FInsertColumns | FRowValues | FConflictFields | FResolution | FResolutionWhere | FAssignments | FFromTables
  | FCases | FPredicates.
  Definition field_eq_dec : forall f g : field, {f = g} + {f <> g}.
  Proof. decide equality. Defined.
  Definition builder := field -> slice.
  Definition upd {T} (f : field) (v : T) (b : field -> T) : field -> T :=
    fun g => if field_eq_dec g f then v else b g.

  (** The builder methods.  Methods that only set fields without slices (Limit,
      From, As, Else, ...) are left out: such fields are copied with the value. *)
  Inductive method :=
  | MAppend (f : field) (xs : list E)
      (* q.f = append(q.f, xs...): With, Select, Join, LeftJoin, RightJoin, FullJoin, CrossJoin, CustomJoin,
         Where, GroupBy, Having, OrderBy: select_query_postgres.go:64-138, select_query_mysql.go:64-133,
         select_query_sqlite.go:64-128; Values, Where, Returning: insert_query_postgres.go:39-112,
         insert_query_sqlite.go:39-105, insert_query_mysql.go:45-48; Set: update_query_postgres.go:49-102,
         update_query_mysql.go:39-97, update_query_sqlite.go:39-92; delete_query_postgres.go:59-97,
         delete_query_mysql.go:39-87, delete_query_sqlite.go:39-79; When: case.go:68-74, 140-146;
         Append: predicate.go:125-128 *)
  | MAssign (f : field) (xs : list E)
      (* q.f = xs, the variadic argument: SelectDistinct, DistinctOn (select_query_postgres.go:74-83),
         Columns, OnConflict, DoUpdateSet (insert_query_postgres.go:49-102), DeleteFrom
         (delete_query_mysql.go:44-47), OrderBy (delete_query_sqlite.go:59-62), and the functions that
         start a query *)
  | MDeleteFrom (x : E).
      (* DeleteFrom: delete_query_postgres.go:44-52, delete_query_sqlite.go:44-52 *)
  Definition call (extra : nat -> nat -> nat) (h : heap) (b : builder) (m : method) : heap * builder :=
    match m with
    | MAppend f xs => let (h', s) := go_append extra h (b f) xs in (h', upd f s b)
    | MAssign f xs => let (h', s) := variadic h xs in (h', upd f s b)
    | MDeleteFrom x =>
      let s := b FFromTables in
      if Nat.eqb (sl_len s) 0
      then let (h', s') := go_append extra h s [x] in (h', upd FFromTables s' b)
      else match sl_array s with
           | Some a => (list_set h a (x :: skipn 1 (slots h s)), upd FFromTables (mk_slice (Some a) 1) b)
           | None => (h, b)                                              (* unreachable *)
           end
    end.

  (** A program: every step makes one more query. *)
  Inductive step :=
  | SNew                                   (* an empty query *)
  | SCall (i : nat) (m : method)           (* the i-th query, one method applied *)
  | SShare (i : nat) (f : field) (j : nat) (g : field).
      (* the i-th query with its slice f set to the slice g of the j-th: a method that
         assigns its variadic argument, called with xs... *)
  Definition no_builder : builder := fun _ => nil_slice.
  Definition run_step (extra : nat -> nat -> nat) (st : heap * list builder) (s : step) : heap * list builder :=
    let (h, bs) := st in
    match s with
    | SNew => (h, bs ++ [no_builder])
    | SCall i m => let (h', b) := call extra h (nth i bs no_builder) m in (h', bs ++ [b])
    | SShare i f j g => (h, bs ++ [upd f (nth j bs no_builder g) (nth i bs no_builder)])
    end.
  Definition run (extra : nat -> nat -> nat) (p : list step) : heap * list builder :=
    fold_left (run_step extra) p ([], []).
End Heap.

(** ** OnConflict: insert_query_postgres.go:76-102, insert_query_sqlite.go:69-95
    The value that OnConflict returns points to a copy of the query; Where,
    DoNothing and DoUpdateSet change this copy. *)
Section Conflict.
  Context {E : Type}.
  Record conflict_query := mk_cq { cq_where : option E; cq_nothing : bool; cq_update : list E }.
  Inductive conflict_call := CWhere (p : E) | CDoNothing | CDoUpdateSet (xs : list E).
  (** The copy after the call; DoNothing and DoUpdateSet also return it. *)
  Definition conflict_step (q : conflict_query) (c : conflict_call) : conflict_query :=
    match c with
    | CWhere p => mk_cq (Some p) (cq_nothing q) (cq_update q)
    | CDoNothing => mk_cq (cq_where q) true (cq_update q)
    | CDoUpdateSet xs => mk_cq (cq_where q) (cq_nothing q) xs
    end.
End Conflict.
