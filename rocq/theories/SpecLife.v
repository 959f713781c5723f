(** * SpecLife: result sets are used one at a time and never left open

    A call of the library, seen from outside: the statements it sends to the
    database, what it does with the result sets it gets (numbered in the order
    they were opened), and the code of the user that it calls. *)
From Verif Require Import GoBase.

Inductive callee := RowMapper | LogQueryStats | GetLogSettings | UserCode.
Inductive event :=
| Executed                 (* ExecContext, whatever it answered *)
| Refused                  (* QueryContext answered with an error *)
| Opened (h : nat)         (* QueryContext answered with result set h *)
| Asked (h : nat)          (* Next *)
| Scanned (h : nat)        (* Scan *)
| Checked (h : nat)        (* Err *)
| Closed (h : nat)         (* Close *)
| Called (c : callee).

(** The result sets that are open after an event. *)
Definition after (open : list nat) (e : event) : list nat :=
  match e with
  | Opened h => h :: open
  | Closed h => remove Nat.eq_dec h open
  | _ => open
  end.
Definition open_after (open : list nat) (tr : list event) : list nat := fold_left after tr open.

(** What may happen while the result sets [open] are open.  A statement is only
    sent, and a record is only logged, if none is: a connection that is reading a
    result set (a transaction, or a pool of one connection) can do neither.  Next
    and Scan are only called on a result set that has not been closed. *)
Definition allowed (open : list nat) (e : event) : Prop :=
  match e with
  | Executed | Refused | Opened _ | Called LogQueryStats | Called GetLogSettings => open = []
  | Asked h | Scanned h => In h open
  | Checked _ | Closed _ | Called RowMapper | Called UserCode => True
  end.
Fixpoint disciplined (open : list nat) (tr : list event) : Prop :=
  match tr with
  | [] => True
  | e :: r => allowed open e /\ disciplined (after open e) r
  end.
