(** * SpecName: what a generated name should be (C34) *)
From Verif Require Import GoBase.

(** The kinds of objects that get a generated name, the constant the library
    uses for them, and the ending of their names. *)
Inductive named_kind := KPrimaryKey | KForeignKey | KUnique | KIndex | KCheck | KExclude.
Definition kind_constant (k : named_kind) : bytes :=
  match k with
  | KPrimaryKey => B "PRIMARY KEY" | KForeignKey => B "FOREIGN KEY" | KUnique => B "UNIQUE"
  | KIndex => B "INDEX" | KCheck => B "CHECK" | KExclude => B "EXCLUDE"
  end.
Definition kind_ending (k : named_kind) : bytes :=
  match k with
  | KPrimaryKey => B "_pkey" | KForeignKey => B "_fkey" | KUnique => B "_key"
  | KIndex => B "_idx" | KCheck => B "_check" | KExclude => B "_excl"
  end.
(** The longest identifier PostgreSQL keeps. *)
Definition max_name : nat := 63.
(** One name written as in a generated name: same length, every blank an underscore. *)
Definition blanks_filled (s t : bytes) : Prop :=
  Forall2 (fun a b => (a = " "%char /\ b = "_"%char) \/ (a <> " "%char /\ b = a)) s t.
(** The table and the columns, separated by underscores. *)
Inductive stem : list bytes -> bytes -> Prop :=
| stem_one : forall a b, blanks_filled a b -> stem [a] b
| stem_cons : forall a b rest s, blanks_filled a b -> rest <> [] -> stem rest s ->
    stem (a :: rest) (b ++ "_"%char :: s).
