(** * CacheModel: the metadata caches (ddl/database_metadata.go, schema.go, table.go, view.go)

    DatabaseMetadata, Schema, Table and View keep their objects in slices that
    users may edit directly, and maps from names to positions.  The code of the
    map for schemas, tables, views, columns, constraints, indexes and triggers
    is the same up to names; it is modelled once, for objects of any type [A]
    with a name and an Ignore flag.
    Simplification: a nil map is an empty map (writes are preceded by make,
    reads and deletes do not distinguish them). *)
From Verif Require Import GoBase.

Section Cache.
  Context {A : Type} (name_of : A -> bytes) (ignored : A -> bool).
  (** Whether the empty name is looked up at all: only CachedSchemaPosition
      has no [if name == "" { return -1 }]. *)
  Context (allow_empty : bool).

  Record cached := mk_cached { objects : list A; positions : list (bytes * nat) }.
  Definition cached_new : cached := mk_cached [] [].

  (** CachedSchemaPosition database_metadata.go:24-39; CachedTablePosition,
      CachedViewPosition schema.go:22-40, 64-82; CachedColumnPosition,
      CachedConstraintPosition, CachedIndexPosition, CachedTriggerPosition
      table.go:29-47, 71-89, 113-131, 155-173.  [None] is -1. *)
  Definition lookup (name : bytes) (s : cached) : option nat * cached :=
    if is_empty name && negb allow_empty then (None, s)
    else
      match mget name (positions s) with
      | None => (None, s)
      | Some i =>
        match nth_error (objects s) i with
        | None => (None, mk_cached (objects s) (mdel name (positions s)))
        | Some a =>
          if negb (beqb (name_of a) name) || ignored a
          then (None, mk_cached (objects s) (mdel name (positions s)))
          else (Some i, s)
        end
      end.

  (** AppendSchema database_metadata.go:41-49; AppendTable, AppendView
      schema.go:42-50, 84-92; AppendColumn, ... table.go:49-57, 91-99, 133-141,
      175-183. *)
  Definition append (a : A) (s : cached) : nat * cached :=
    let l := objects s ++ [a] in
    let i := length l - 1 in
    (i, mk_cached l (mset (name_of a) i (positions s))).

  (** RefreshSchemaCache database_metadata.go:51-61; RefreshTableCache,
      RefreshViewCache schema.go:52-62, 94-105; RefreshColumnCache, ...
      table.go:59-69, 101-111, 143-153, 185-195. *)
  Fixpoint refresh_from (i : nat) (l : list A) (m : list (bytes * nat)) : list (bytes * nat) :=
    match l with
    | [] => m
    | a :: l' => refresh_from (S i) l' (if ignored a then m else mset (name_of a) i m)
    end.
  Definition refresh (s : cached) : cached :=
    mk_cached (objects s) (refresh_from 0 (objects s) (positions s)).

  (** [s.Tables = l] and the like: user code assigning the exported slice. *)
  Definition edit (l : list A) (s : cached) : cached := mk_cached l (positions s).

  (** What a program can do with one such slice. *)
  Inductive cache_op := OAppend (a : A) | OEdit (l : list A) | ORefresh | OLookup (name : bytes).
  Definition cache_step (s : cached) (o : cache_op) : cached :=
    match o with
    | OAppend a => snd (append a s)
    | OEdit l => edit l s
    | ORefresh => refresh s
    | OLookup name => snd (lookup name s)
    end.
  Definition cache_run (h : list cache_op) : cached := fold_left cache_step h cached_new.

  (** ** Functions: one name can have several positions *)
  Record fcached := mk_fcached { fobjects : list A; fpositions : list (bytes * list nat) }.
  Definition fcached_new : fcached := mk_fcached [] [].
  Definition fget (name : bytes) (m : list (bytes * list nat)) : list nat :=
    match mget name m with Some l => l | None => [] end.
  (** schema.go:107-130 [CachedFunctionPositions]; nil is the empty list.
      Simplification: the returned slice shares memory with the cache in Go;
      the model returns a copy. *)
  Definition flookup (name : bytes) (s : fcached) : list nat * fcached :=
    if is_empty name then ([], s)
    else
      match mget name (fpositions s) with
      | None => ([], s)
      | Some l =>
        let ok := fun n => match nth_error (fobjects s) n with
                           | Some a => beqb (name_of a) name
                           | None => false
                           end in
        let l' := filter ok l in
        (l', mk_fcached (fobjects s)
               (if forallb ok l then fpositions s else mset name l' (fpositions s)))
      end.
  (** schema.go:132-140 [AppendFunction]. *)
  Definition fappend (a : A) (s : fcached) : nat * fcached :=
    let l := fobjects s ++ [a] in
    let i := length l - 1 in
    (i, mk_fcached l (mset (name_of a) (fget (name_of a) (fpositions s) ++ [i]) (fpositions s))).
  (** schema.go:142-155 [RefreshFunctionCache]: all lists are emptied, then
      refilled. *)
  Fixpoint frefresh_from (i : nat) (l : list A) (m : list (bytes * list nat)) : list (bytes * list nat) :=
    match l with
    | [] => m
    | a :: l' => frefresh_from (S i) l'
                   (if ignored a then m else mset (name_of a) (fget (name_of a) m ++ [i]) m)
    end.
  Definition frefresh (s : fcached) : fcached :=
    mk_fcached (fobjects s)
      (frefresh_from 0 (fobjects s) (map (fun kv => (fst kv, [])) (fpositions s))).
  Definition fedit (l : list A) (s : fcached) : fcached := mk_fcached l (fpositions s).
  Definition fcache_step (s : fcached) (o : cache_op) : fcached :=
    match o with
    | OAppend a => snd (fappend a s)
    | OEdit l => fedit l s
    | ORefresh => frefresh s
    | OLookup name => snd (flookup name s)
    end.
  Definition fcache_run (h : list cache_op) : fcached := fold_left fcache_step h fcached_new.
End Cache.
Arguments cached : clear implicits.
Arguments fcached : clear implicits.
Arguments cache_op : clear implicits.

(** ** Extensions: database_metadata.go:62-101 *)
(** [extension[:i]] with i the first '@'. *)
Definition ext_name (extension : bytes) : bytes :=
  match index_byte "@" extension with Some i => firstn i extension | None => extension end.
(** The part of DatabaseMetadata that matters: the schemas only through their
    number and the map of their names. *)
Record ext_state := mk_ext {
  x_extensions : list bytes; x_cache : list (bytes * nat);
  x_schemas : nat; x_schema_cache : list (bytes * nat) }.
Fixpoint has_prefix (s p : bytes) : bool :=
  match p, s with
  | [], _ => true
  | c :: p', a :: s' => Ascii.eqb a c && has_prefix s' p'
  | _ :: _, [] => false
  end.
(** database_metadata.go:63-76 [CachedExtensionPosition]: the position is
    compared with the number of schemas (71), and a stale entry is deleted from
    the schema map (72). *)
Definition ext_lookup (extension : bytes) (s : ext_state) : outcome (option nat) * ext_state :=
  let name := ext_name extension in
  match mget name (x_cache s) with
  | None => (Ok None, s)
  | Some i =>
    let stale := mk_ext (x_extensions s) (x_cache s) (x_schemas s) (mdel name (x_schema_cache s)) in
    if Nat.leb (x_schemas s) i then (Ok None, stale)
    else
      match nth_error (x_extensions s) i with
      | None => (Panic, s)
      | Some e => if has_prefix e name then (Ok (Some i), s) else (Ok None, stale)
      end
  end.
(** database_metadata.go:78-89 [AppendExtension]. *)
Definition ext_append (extension : bytes) (s : ext_state) : ext_state :=
  mk_ext (x_extensions s ++ [extension])
    (mset (ext_name extension) (length (x_extensions s)) (x_cache s)) (x_schemas s) (x_schema_cache s).
