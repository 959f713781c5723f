(** * SharedModel: a DatabaseIntrospector used by several goroutines

    ddl/introspect.go:49-55, 57-76: the introspector holds a map of parsed
    templates and a sync.RWMutex for it; nothing else in it is ever written. *)
From Verif Require Import GoBase QuoteModel TemplateModel.

(** ** The calls: ddl/introspect.go:92-130 [queryContext], statement by statement *)
Record call := mk_call { c_name : bytes; c_filter : option filter }.
(** What comes of it: a query is sent, or an error is returned (100, 107, 127).
    Simplification: the three errors are one. *)
Inductive answer := Sent (text : bytes) | Refused.

(** Where a goroutine is. *)
Inductive point :=
| Idle                                          (* outside *)
| Entered (c : call)                            (* before 94 *)
| ReadLocked (c : call)                         (* before 95 *)
| Reading (c : call)                            (* in the map, 95 *)
| HasRead (c : call) (t : option (list node))   (* before 96 *)
| Unlocked (c : call) (t : option (list node))  (* before 97 *)
| Parsed (c : call) (t : list node)             (* before 109 *)
| Locked (c : call) (t : list node)             (* before 110 *)
| Writing (c : call) (t : list node)            (* in the map, 110 *)
| HasWritten (c : call) (t : list node)         (* before 111 *)
| Executing (c : call) (t : list node).         (* before 113 *)

(** A goroutine: where it is, the calls it has made with their answers, and
    what it calls next. *)
Record thread := mk_thread { t_at : point; t_past : list (call * answer); t_next : list (call * answer) -> option call }.
(** The introspector: the map, how many goroutines are reading and writing it
    right now, the mutex (readers, writer).  A Go program in which a map is
    written while another goroutine reads or writes it is aborted. *)
Record shared := mk_shared {
  s_map : list (bytes * list node); s_reading : nat; s_writing : nat; s_readers : nat; s_writer : bool; s_aborted : bool }.

Section Introspector.
  (** The embedded scripts (fs.FS) and the default filter. *)
  Variable files : bytes -> option bytes.
  Variable default : option filter.

  (** 118-124. *)
  Definition chosen (f : option filter) : filter :=
    match f with Some f => f | None => match default with Some f => f | None => no_filter end end.

  Inductive moves : shared -> thread -> shared -> thread -> Prop :=
  | m_call s past next c : next past = Some c -> moves s (mk_thread Idle past next) s (mk_thread (Entered c) past next)
  | m_rlock m r w n c past next :                                                                  (* 94 *)
      moves (mk_shared m r w n false false) (mk_thread (Entered c) past next) (mk_shared m r w (S n) false false) (mk_thread (ReadLocked c) past next)
  | m_read m r w n b c past next :                                                                 (* 95 *)
      moves (mk_shared m r w n b false) (mk_thread (ReadLocked c) past next)
            (mk_shared m (S r) w n b (Nat.ltb 0 w)) (mk_thread (Reading c) past next)
  | m_has_read m r w n b c past next :
      moves (mk_shared m (S r) w n b false) (mk_thread (Reading c) past next)
            (mk_shared m r w n b false) (mk_thread (HasRead c (mget (c_name c) m)) past next)
  | m_runlock m r w n b c t past next :                                                            (* 96 *)
      moves (mk_shared m r w (S n) b false) (mk_thread (HasRead c t) past next)
            (mk_shared m r w n b false) (mk_thread (Unlocked c t) past next)
  | m_cached s c t past next :                                                                     (* 97 *)
      moves s (mk_thread (Unlocked c (Some t)) past next) s (mk_thread (Executing c t) past next)
  | m_parse s c past next script t :                                                               (* 98-108 *)
      files (c_name c) = Some script -> parse_template script = Some t ->
      moves s (mk_thread (Unlocked c None) past next) s (mk_thread (Parsed c t) past next)
  | m_no_template s c past next :                                                                  (* 99-101, 106-108 *)
      (files (c_name c) = None \/ exists script, files (c_name c) = Some script /\ parse_template script = None) ->
      moves s (mk_thread (Unlocked c None) past next) s (mk_thread Idle (past ++ [(c, Refused)]) next)
  | m_lock m r w c t past next :                                                                   (* 109 *)
      moves (mk_shared m r w 0 false false) (mk_thread (Parsed c t) past next)
            (mk_shared m r w 0 true false) (mk_thread (Locked c t) past next)
  | m_write m r w n b c t past next :                                                              (* 110 *)
      moves (mk_shared m r w n b false) (mk_thread (Locked c t) past next)
            (mk_shared m r (S w) n b (Nat.ltb 0 w || Nat.ltb 0 r)) (mk_thread (Writing c t) past next)
  | m_has_written m r w n b c t past next :
      moves (mk_shared m r (S w) n b false) (mk_thread (Writing c t) past next)
            (mk_shared (mset (c_name c) t m) r w n b false) (mk_thread (HasWritten c t) past next)
  | m_unlock m r w n c t past next :                                                               (* 111 *)
      moves (mk_shared m r w n true false) (mk_thread (HasWritten c t) past next)
            (mk_shared m r w n false false) (mk_thread (Executing c t) past next)
  | m_execute s c t past next :                                                                    (* 113-129 *)
      moves s (mk_thread (Executing c t) past next)
            s (mk_thread Idle (past ++ [(c, match exec_nodes (chosen (c_filter c)) t with Some text => Sent text | None => Refused end)]) next).

  Inductive step : shared * list thread -> shared * list thread -> Prop :=
  | s_move s ts1 th ts2 s' th' : s_aborted s = false -> moves s th s' th' -> step (s, ts1 ++ th :: ts2) (s', ts1 ++ th' :: ts2).
  Inductive steps : shared * list thread -> shared * list thread -> Prop :=
  | s_none c : steps c c
  | s_more c1 c2 c3 : steps c1 c2 -> step c2 c3 -> steps c1 c3.
End Introspector.

(** ddl/introspect.go:68-74: a new introspector; goroutines that have made no call. *)
Definition new_introspector : shared := mk_shared [] 0 0 0 false false.
Definition begin_with (next : list (call * answer) -> option call) : thread := mk_thread Idle [] next.
