(** * SpecPool: a goroutine that runs alone *)
From Verif Require Import GoBase QuoteModel SprintModel PoolModel.

Section Lone.
  Context {Q A J R : Type}.
  (** Its variables: each holds nothing or an object with these contents that
      nobody else knows. *)
  Definition locals := nat -> option obj.
  Definition nothing_held : locals := fun _ => None.

  (** Running alone: every Get yields a new, empty object. *)
  Inductive lone : locals -> prog Q A J R -> list (event Q A J) -> R -> Prop :=
  | l_ret s r : lone s (Ret r) [] r
  | l_get s x k t r : lone (upd s x (Some blank)) k t r -> lone s (Get x k) t r
  | l_write s x o b k t r : s x = Some o -> lone (upd s x (Some (fst o ++ b, snd o))) k t r -> lone s (Write x b k) t r
  | l_append s x o v k t r : s x = Some o -> lone (upd s x (Some (fst o, v))) k t r -> lone s (Args x v k) t r
  | l_read s x o k t r : s x = Some o -> lone s (k o) t r -> lone s (Read x k) t r
  | l_reset s x o k t r : s x = Some o -> lone (upd s x (Some blank)) k t r -> lone s (Reset x k) t r
  | l_put s x o k t r : s x = Some o -> lone (upd s x None) k t r -> lone s (Put x k) t r
  | l_ask s q a k t r : lone s (k a) t r -> lone s (Ask q k) (Asked q a :: t) r
  | l_spawn s j k t r : lone s k t r -> lone s (Spawn j k) (Spawned j :: t) r.

  (** Uses only objects it holds, gives back only empty ones, and in the end
      has given back all, whatever it is answered. *)
  Inductive disciplined : locals -> prog Q A J R -> Prop :=
  | d_ret s r : (forall x, s x = None) -> disciplined s (Ret r)
  | d_get s x k : s x = None -> disciplined (upd s x (Some blank)) k -> disciplined s (Get x k)
  | d_write s x o b k : s x = Some o -> disciplined (upd s x (Some (fst o ++ b, snd o))) k -> disciplined s (Write x b k)
  | d_append s x o v k : s x = Some o -> disciplined (upd s x (Some (fst o, v))) k -> disciplined s (Args x v k)
  | d_read s x o k : s x = Some o -> disciplined s (k o) -> disciplined s (Read x k)
  | d_reset s x o k : s x = Some o -> disciplined (upd s x (Some blank)) k -> disciplined s (Reset x k)
  | d_put s x k : s x = Some blank -> disciplined (upd s x None) k -> disciplined s (Put x k)
  | d_ask s q k : (forall a, disciplined s (k a)) -> disciplined s (Ask q k)
  | d_spawn s j k : disciplined s k -> disciplined s (Spawn j k).
End Lone.

(** The goroutines started, in the order in which they were. *)
Definition jobs_of {Q A J} (es : list (event Q A J)) : list J :=
  flat_map (fun e => match e with Spawned j => [j] | _ => [] end) es.

(** A pool before the first call, or after any calls: different, empty objects. *)
Definition clean (w : world) : Prop :=
  NoDup (w_pool w) /\ forall a, In a (w_pool w) -> a < w_next w /\ w_heap w a = blank.
