(** * SpecFetch: what a row mapper sees of a result *)
From Verif Require Import GoBase QuoteModel SprintModel TokenModel EffectModel RenderModel BuildModel FetchModel.

(** ** Ordinary mappers (C26, C27)
    A mapper that asks for the columns [m_cols] one after the other and then
    does its work in row.Process / row.ProcessErr: given what was done before
    and the row's values it does some actions and then goes on, closes the row
    or fails. *)
Inductive verdict := Continue | Stop | Fail (e : gerr).
Record mapping (A : Type) := mk_mapping {
  m_cols : list (kind * node);
  m_body : list A -> list gval -> list A * verdict }.
Arguments m_cols {A}. Arguments m_body {A}. Arguments mk_mapping {A}.

(** As a program: *)
Section Prog.
  Context {A : Type}.
  Fixpoint ask (cols : list (kind * node)) (got : list gval) (k : list gval -> prog A) : prog A :=
    match cols with
    | [] => k got
    | (ty, f) :: cols => PGet ty f (fun v => ask cols (got ++ [v]) k)
    end.
  Fixpoint acts (l : list A) (k : prog A) : prog A :=
    match l with [] => k | a :: l => PDo a (acts l k) end.
  Definition body_prog (o : list A * verdict) : prog A :=
    acts (fst o) (match snd o with Continue => PEnd None | Stop => PClose (PEnd None) | Fail e => PEnd (Some e) end).
  Definition mapper_of (m : mapping A) : list A -> prog A :=
    fun h => ask (m_cols m) [] (fun vs => PProcess true (body_prog (m_body m h vs)) (fun _ => PEnd None)).

  (** What is done after mapping the rows with these values, in this order. *)
  Definition after (m : mapping A) (h : list A) (rows : list (list gval)) : list A :=
    fold_left (fun h vs => h ++ fst (m_body m h vs)) rows h.
  (** The mapper goes on after each of these rows. *)
  Fixpoint all_continue (m : mapping A) (h : list A) (rows : list (list gval)) : Prop :=
    match rows with
    | [] => True
    | vs :: rows => snd (m_body m h vs) = Continue /\ all_continue m (h ++ fst (m_body m h vs)) rows
    end.
End Prog.

(** Scanning these rows gives these values. *)
Definition scans (cols : list (kind * node)) (rows : list dbrow) (vals : list (list gval)) : Prop :=
  Forall2 (fun r vs => scan r cols = inr vs) rows vals.

(** ** Any mapper (C26) *)
Inductive outcome := Finished | Closed | Failed (e : gerr) | Panicked.
(** The text of this field with its arguments can be made: rendering it, and
    putting the arguments into the text, do not panic. *)
Definition can_show (d : dialect) (f : node) : Prop :=
  let r := append_sql d f None [] st0 in
  snd r <> SPanic /\ (snd r = SOk -> sprintf d (out_text d (st_out (fst r))) (st_args (fst r)) <> Panic).
Section Any.
  Context {A : Type} (dl : dialect) (mapper : list A -> prog A) (cols : list (kind * node)).
  (** A row ready to be read from its first column: nothing processed, no
      error, not closed. *)
  Definition fresh_row (vs : list gval) : row := mk_row true 0 cols vs None false false.
  (** The mapper is called on the rows in order, once each and each time with a
      fresh row, until one of the calls does not go on. [n]: the rows begun. *)
  Inductive visits : list dbrow -> list A -> nat -> outcome -> list A -> Prop :=
  | V_end h : visits [] h 0 Finished h
  | V_scan d rest h e : scan d cols = inl e -> (forall c, In c cols -> can_show dl (snd c)) ->
      visits (d :: rest) h 1 (Failed e) h
  (* the error cannot be explained *)
  | V_lost d rest h e : scan d cols = inl e -> ~ (forall c, In c cols -> can_show dl (snd c)) ->
      visits (d :: rest) h 1 (Failed ERuntime) h
  | V_err d rest h vs e r h1 : scan d cols = inr vs ->
      run (mapper h) (fresh_row vs) h = (XErr e, r, h1) -> visits (d :: rest) h 1 (Failed e) h1
  | V_panic d rest h vs r h1 : scan d cols = inr vs ->
      run (mapper h) (fresh_row vs) h = (XPanic, r, h1) -> visits (d :: rest) h 1 Panicked h1
  | V_fail d rest h vs x e r h1 : scan d cols = inr vs ->
      run (mapper h) (fresh_row vs) h = (XDone x, r, h1) -> r_err r = Some e -> visits (d :: rest) h 1 (Failed e) h1
  | V_close d rest h vs x r h1 : scan d cols = inr vs ->
      run (mapper h) (fresh_row vs) h = (XDone x, r, h1) -> r_err r = None -> r_closed r = true ->
      visits (d :: rest) h 1 Closed h1
  | V_next d rest h vs x r h1 n o h2 : scan d cols = inr vs ->
      run (mapper h) (fresh_row vs) h = (XDone x, r, h1) -> r_err r = None -> r_closed r = false ->
      visits rest h1 n o h2 -> visits (d :: rest) h (S n) o h2.
End Any.

(** The error Fetch reports for an outcome; an error of rows.Close() or
    rows.Err() counts only if mapping went well. *)
Definition reported (o : outcome) (close iter : option nat) : option gerr :=
  match o with
  | Failed e => Some e
  | Panicked => None
  | _ => match close, iter with
         | Some e, _ => Some (EClose e)
         | None, Some e => Some (EIter e)
         | None, None => None
         end
  end.
