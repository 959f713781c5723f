(** * PoolModel: goroutines that share pooled buffers and argument slices

    sq.go:17-20 and ddl/ddl.go:16-19: [bufpool] and [argspool] are sync.Pools of
    bytes.Buffers and []interface{}s.  Every function that needs one takes it
    with Get, empties it in a deferred call and gives it back with Put.  The
    other models treat the buffers as local accumulators; here they are shared
    objects, and any number of goroutines use the pools at the same time.

    A pool may hand out any object that was given back and not taken since, or
    a new one; and it may forget any object at any time (sync.Pool). *)
From Verif Require Import GoBase QuoteModel SprintModel.

(** The contents of a bytes.Buffer (first) or of an []interface{} (second).
    One type serves for the two pools: the model lets the pools mix. *)
Definition obj := (bytes * list gval)%type.
Definition blank : obj := ([], []).

(** ** Programs *)
Section Programs.
  (** What a call asks the outside world (database, log file), and the answers;
      the goroutines it starts (a go statement). *)
  Context {Q A J : Type}.

  (** [x]: the variable that holds the object. *)
  Inductive prog {R : Type} :=
  | Ret (r : R)
  | Get (x : nat) (k : prog)                    (* x := bufpool.Get() *)
  | Write (x : nat) (b : bytes) (k : prog)      (* x.WriteString(b) *)
  | Args (x : nat) (l : list gval) (k : prog)   (* x = append(x, v), x[i] = v: the new elements *)
  | Read (x : nat) (k : obj -> prog)            (* x.String(); the elements of x *)
  | Reset (x : nat) (k : prog)                  (* x.Reset(); x = x[:0] *)
  | Put (x : nat) (k : prog)                    (* bufpool.Put(x) *)
  | Ask (q : Q) (k : A -> prog)
  | Spawn (j : J) (k : prog).                   (* go ... *)
  Arguments prog : clear implicits.

  (** Calls one after the other. *)
  Fixpoint bind {R S} (p : prog R) (f : R -> prog S) : prog S :=
    match p with
    | Ret r => f r
    | Get x k => Get x (bind k f)
    | Write x b k => Write x b (bind k f)
    | Args x l k => Args x l (bind k f)
    | Read x k => Read x (fun o => bind (k o) f)
    | Reset x k => Reset x (bind k f)
    | Put x k => Put x (bind k f)
    | Ask q k => Ask q (fun a => bind (k a) f)
    | Spawn j k => Spawn j (bind k f)
    end.
  (** [x := bufpool.Get(); defer func() { x.Reset(); bufpool.Put(x) }(); body].
      [body] yields how the call ends: with a value, an error or a panic; the
      deferred function runs in each case. *)
  Definition pooled {R} (x : nat) (body : prog R) : prog R :=
    Get x (bind body (fun r => Reset x (Put x (Ret r)))).

  (** The same with [n] objects: [x := Get(); y := Get(); ...; defer func() {
      x.Reset(); y.Reset(); ...; Put(x); Put(y); ... }()]. *)
  Fixpoint gets {R} (x n : nat) (k : prog R) : prog R := match n with 0 => k | S m => Get x (gets (S x) m k) end.
  Fixpoint resets {R} (x n : nat) (k : prog R) : prog R := match n with 0 => k | S m => Reset x (resets (S x) m k) end.
  Fixpoint puts {R} (x n : nat) (k : prog R) : prog R := match n with 0 => k | S m => Put x (puts (S x) m k) end.
  Definition pooled_n {R} (n x : nat) (body : prog R) : prog R :=
    gets x n (bind body (fun r => resets x n (puts x n (Ret r)))).

  (** ** Execution *)
  Inductive event := Asked (q : Q) (a : A) | Spawned (j : J).
  Definition upd {T} (f : nat -> T) (x : nat) (v : T) : nat -> T := fun y => if Nat.eqb y x then v else f y.

  (** All objects that exist, those in the pool, and the next new one. *)
  Record world := mk_world { w_heap : nat -> obj; w_pool : list nat; w_next : nat }.
  (** A goroutine: what is left to do, the objects its variables hold, what it
      has asked and started. *)
  Record thread {R} := mk_thread { t_prog : prog R; t_vars : nat -> nat; t_trace : list event }.
  Arguments thread : clear implicits.
  Arguments mk_thread {R}.
  Arguments t_prog {R}.
  Arguments t_vars {R}.
  Arguments t_trace {R}.
  Definition start {R} (p : prog R) : thread R := mk_thread p (fun _ => 0) [].

  (** One step of a goroutine.  Writing goes byte by byte, so that other
      goroutines may run in between. *)
  Inductive action {R} : world -> prog R -> (nat -> nat) -> world -> prog R -> (nat -> nat) -> list event -> Prop :=
  | a_reuse h l1 a l2 n x k v :
      action (mk_world h (l1 ++ a :: l2) n) (Get x k) v (mk_world h (l1 ++ l2) n) k (upd v x a) []
  | a_new h l n x k v :
      action (mk_world h l n) (Get x k) v (mk_world (upd h n blank) l (S n)) k (upd v x n) []
  | a_write h l n x c b k v :
      action (mk_world h l n) (Write x (c :: b) k) v
             (mk_world (upd h (v x) (fst (h (v x)) ++ [c], snd (h (v x)))) l n) (Write x b k) v []
  | a_written w x k v : action w (Write x [] k) v w k v []
  | a_append h l n x e k v :
      action (mk_world h l n) (Args x e k) v (mk_world (upd h (v x) (fst (h (v x)), e)) l n) k v []
  | a_read w x k v : action w (Read x k) v w (k (w_heap w (v x))) v []
  | a_reset h l n x k v : action (mk_world h l n) (Reset x k) v (mk_world (upd h (v x) blank) l n) k v []
  | a_put h l n x k v : action (mk_world h l n) (Put x k) v (mk_world h (v x :: l) n) k v []
  | a_ask w q a k v : action w (Ask q k) v w (k a) v [Asked q a]
  | a_spawn w j k v : action w (Spawn j k) v w k v [Spawned j].

  (** [job]: what the goroutine started by a go statement does. *)
  Definition begun {R} (job : J -> prog R) (es : list event) : list (thread R) :=
    flat_map (fun e => match e with Spawned j => [start (job j)] | _ => [] end) es.
  Inductive step {R} (job : J -> prog R) : world * list (thread R) -> world * list (thread R) -> Prop :=
  | s_run ts1 p v tr ts2 w w' p' v' es :
      action w p v w' p' v' es ->
      step job (w, ts1 ++ mk_thread p v tr :: ts2)
               (w', ts1 ++ mk_thread p' v' (tr ++ es) :: ts2 ++ begun job es)
  | s_forget h l1 a l2 n ts : step job (mk_world h (l1 ++ a :: l2) n, ts) (mk_world h (l1 ++ l2) n, ts).
  Inductive steps {R} (job : J -> prog R) : world * list (thread R) -> world * list (thread R) -> Prop :=
  | s_none c : steps job c c
  | s_more c1 c2 c3 : steps job c1 c2 -> step job c2 c3 -> steps job c1 c3.
End Programs.
Arguments prog : clear implicits.
Arguments thread : clear implicits.
Arguments event : clear implicits.
Arguments mk_thread {Q A J R}.
Arguments t_prog {Q A J R}.
Arguments t_vars {Q A J R}.
Arguments t_trace {Q A J R}.
