(** * SpecCache: lookups by name in a list of objects (C29) *)
From Verif Require Import GoBase CacheModel.

Section Spec.
  Context {A : Type} (name_of : A -> bytes) (ignored : A -> bool).

  (** Position i holds an object of this name that is not ignored. *)
  Definition at_position (l : list A) (name : bytes) (i : nat) : Prop :=
    exists a, nth_error l i = Some a /\ name_of a = name /\ ignored a = false.
  (** The last such position. *)
  Definition last_position (l : list A) (name : bytes) (i : nat) : Prop :=
    at_position l name i /\ forall j, at_position l name j -> j <= i.
  Definition absent (l : list A) (name : bytes) : Prop := forall i, ~ at_position l name i.

  (** The slice a program sees after a history, whatever the cache does. *)
  Definition slice_step (l : list A) (o : cache_op A) : list A :=
    match o with
    | OAppend a => l ++ [a]
    | OEdit l' => l'
    | ORefresh | OLookup _ => l
    end.
  Definition slice_after (h : list (cache_op A)) : list A := fold_left slice_step h [].

  (** Histories in which the program played by the rules: after editing the
      slice itself it refreshed (unless it changed neither a name nor an Ignore
      flag), and it did not append an ignored object under the name of a
      present one. *)
  Inductive up_to_date : list (cache_op A) -> Prop :=
  | utd_start : up_to_date []
  | utd_append : forall h a, up_to_date h ->
      (ignored a = false \/ absent (slice_after h) (name_of a)) -> up_to_date (h ++ [OAppend a])
  | utd_in_place : forall h l, up_to_date h ->
      Forall2 (fun a b => name_of a = name_of b /\ ignored a = ignored b) (slice_after h) l ->
      up_to_date (h ++ [OEdit l])
  | utd_refresh : forall h, up_to_date (h ++ [ORefresh])
  | utd_lookup : forall h name, up_to_date h -> up_to_date (h ++ [OLookup name]).
End Spec.
