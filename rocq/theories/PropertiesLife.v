(** * C79: result sets are used one at a time and never left open *)
From Verif Require Import GoBase SpecLife LifeModel LifePf.

Definition start : frame := mk_frame None [].
Definition passes (k : nat) (p : stmt) : bool := match post k p (SNone, []) with Some _ => true | None => false end.
Lemma passes_some k p : passes k p = true -> exists l, post k p (SNone, []) = Some l.
Proof. unfold passes. destruct (post k p (SNone, [])) as [l|]; [now exists l|discriminate]. Qed.
Lemma calls_pass : exists k, forallb (passes k) calls = true.
Proof. exists 300. vm_compute. reflexivity. Qed.
Lemma calls_are_functions : Forall (fun p => exists b, p = Func b) calls.
Proof. unfold calls. repeat constructor; eexists; reflexivity. Qed.
Lemma passing_call k b l n tr o n' f' :
  post k (Func b) (SNone, []) = Some l -> run n (Func b) start tr o n' f' -> disciplined [] tr /\ open_after [] tr = [].
Proof.
  intros P R. destruct (proj1 checked _ _ _ _ _ _ _ R k (SNone, []) [] l P) as (v & open & I & K & (D & A)); [now repeat split|].
  split; [exact D|]. rewrite A. assert (E : f' = start).
  { inversion R; subst; [|reflexivity]. match goal with H : _ \/ _ |- _ => destruct H as [H|[H|[H|(? & H)]]]; discriminate H end. }
  subst f'. destruct K as (K & _). unfold fits, start in K. cbn [rows] in K.
  destruct (fst v); [exact (proj2 K)|destruct K as (h & K & _); discriminate..].
Qed.

(** C79.  However a call ends - it returns, with or without an error, or it
    panics, because the user's code or the driver does -, no result set is left
    open; at no time is a statement sent or a record logged while one is open,
    nor a closed one read. *)
Theorem result_sets_closed p n tr o n' f' :
  In p calls -> run n p start tr o n' f' -> disciplined [] tr /\ open_after [] tr = [].
Proof.
  intros Hp R. destruct calls_pass as (k & C). rewrite forallb_forall in C. specialize (C p Hp). destruct (passes_some k p C) as (l & P).
  pose proof calls_are_functions as F. rewrite Forall_forall in F. destruct (F p Hp) as (b & ->). exact (passing_call k b l _ _ _ _ _ P R).
Qed.
Print Assumptions result_sets_closed.

(** ** Non-trivial executions *)
(** A row is read, then the mapper panics: the result set is closed, the record is
    logged, and Fetch ends normally (the panic is recovered). *)
Definition ex_panic : list event :=
  [Called GetLogSettings; Called UserCode; Called RowMapper; Called UserCode; Called UserCode; Opened 0; Asked 0; Scanned 0; Called RowMapper;
   Closed 0; Called LogQueryStats].
Ltac sq := eapply run_seq.
Ltac no_err := apply run_right, run_skip.
Ltac no_log := apply run_left, run_skip.
Example ex_fetch : exists tr, In fetch calls /\ run 0 fetch start tr Normal 1 start /\ tr = ex_panic.
Proof.
  eexists. split; [now left|]. split.
  - eapply (run_func _ _ _ _ Panicked _ _ _ Returned).
    + sq; [apply run_defer|]. sq; [no_err|]. sq; [apply run_right; sq; [apply run_call|apply run_left, run_skip]|].
      sq; [apply run_call|]. sq; [apply run_call|]. sq; [apply run_compute|]. sq; [apply run_call|]. sq; [no_err|]. sq; [apply run_defer|]. sq; [apply run_defer|].
      sq; [apply run_call|]. sq; [no_err|]. sq; [apply run_query|]. sq; [apply run_defer|]. sq; [no_err|]. sq; [apply run_compute|].
      apply run_stop; [|discriminate]. apply run_next_stop; [reflexivity| |now right].
      sq; [apply run_scan; [reflexivity|now left]|]. sq; [no_err|]. sq; [apply run_left, run_skip|]. apply run_stop; [apply run_call_panic|discriminate].
    + cbn [defers rows].
      eapply unwind_call; [apply run_close; [reflexivity|now left]|]. eapply unwind_call.
      { apply run_right. sq; [apply run_compute|]. apply run_right, run_call. }
      eapply unwind_call; [apply run_skip|]. apply unwind_recover, unwind_end.
  - reflexivity.
Qed.

(** ** Wrong programs: what a missing defer would do *)
(** FetchExists without `defer rows.Close()` (fetch.go:340): a Scan error leaves
    the result set open, and so the record is logged while it is. *)
Definition careless : stmt := Func (
  Defer log_call ;; Query Return ;; ForNext (Scan ;; if_err ;; Break) ;; Close ;; if_err ;; Check ;; if_err ;; Return)%stmt.
Theorem missing_defer_refuted :
  ~ (forall tr o n f, run 0 careless start tr o n f -> disciplined [] tr) /\
  ~ (forall tr o n f, run 0 careless start tr o n f -> open_after [] tr = []).
Proof.
  assert (R : exists tr o n f, run 0 careless start tr o n f /\ tr = [Opened 0; Asked 0; Scanned 0; Called LogQueryStats]).
  { do 4 eexists. split.
    - eapply (run_func _ _ _ _ Returned _ _ _ Returned).
      + sq; [apply run_defer|]. sq; [apply run_query|]. apply run_stop; [|discriminate]. apply run_next_stop; [reflexivity| |now left].
        sq; [apply run_scan; [reflexivity|now left]|]. apply run_stop; [apply run_left, run_return|discriminate].
      + cbn [defers rows]. eapply unwind_call; [apply run_right; sq; [apply run_compute|apply run_right, run_call]|]. apply unwind_end.
    - reflexivity. }
  destruct R as (tr & o & n & f & R & E). split; intros H; specialize (H tr o n f R); subst tr; cbn in H; [|discriminate].
  destruct H as (_ & _ & _ & H & _). discriminate.
Qed.
(** The check refuses it, as it refuses a query inside the loop over another. *)
Example check_refuses : passes 300 careless = false /\
  passes 300 (Func (Query Return ;; Defer Close ;; ForNext (Scan ;; get_version) ;; Return)%stmt) = false.
Proof. split; vm_compute; reflexivity. Qed.
