(** * RowModel: the typed accessors of Row (row.go:66-323) *)
From Verif Require Import GoBase QuoteModel SprintModel TokenModel EffectModel RenderModel BuildModel FetchModel.

(** The accessors.  [AInto*]: ScanInto with a pointer to that type, [APtr ty]:
    with a pointer to another type; ScanArray is [APtr] for the type that
    pq.Array gives. *)
Inductive accessor :=
| ABool | ABoolValid | ANullBool
| AFloat64 | AFloat64Valid | ANullFloat64
| AInt | AIntValid | AInt64 | AInt64Valid | ANullInt64
| AString | AStringValid | ANullString
| ATime | ATimeValid | ANullTime
| ABytes | AJSON
| AIntoBool | AIntoNullBool | AIntoFloat64 | AIntoNullFloat64 | AIntoInt | AIntoInt32 | AIntoNullInt32
| AIntoInt64 | AIntoNullInt64 | AIntoString | AIntoNullString | AIntoTime | AIntoNullTime | APtr (ty : nat).

(** What an accessor returns (or stores in the given variable). *)
Inductive result :=
| RBool (b : bool) | RFloat (t : bytes) | RInt (z : Z) | RString (s : bytes) | RTime (t : bytes)
| RBytes (b : bytes)
| RNull (v : gval)                  (* a sql.Null* struct *)
| RJSON (doc : bytes)               (* the variable after json.Unmarshal(doc) *)
| RAny (v : gval)
| RNothing.                         (* the variable is left alone *)

(** The destination an accessor registers: row.go:70-91 (ScanInto), 142-149, 156-165, 174-179
    and the Null* methods (199-209, 225-235, 262-272, 288-298, 313-323). *)
Definition dest_kind (a : accessor) : kind :=
  match a with
  | ABool | ABoolValid | ANullBool | AIntoBool | AIntoNullBool => KBool
  | AFloat64 | AFloat64Valid | ANullFloat64 | AIntoFloat64 | AIntoNullFloat64 => KFloat64
  | AInt | AIntValid | AInt64 | AInt64Valid | ANullInt64 | AIntoInt | AIntoInt64 | AIntoNullInt64 => KInt64
  | AIntoInt32 | AIntoNullInt32 => KInt32
  | AString | AStringValid | ANullString | AIntoString | AIntoNullString => KString
  | ATime | ATimeValid | ANullTime | AIntoTime | AIntoNullTime => KTime
  | ABytes | AJSON => KBytes
  | APtr ty => KPtr ty
  end.

(** The part of the destination that is returned: row.go:93-138, 180-182, 186-235,
    239-272, 276-298, 302-323. *)
Definition part (a : accessor) (v : gval) : result :=
  match a, v with
  | (ABool | AIntoBool), GNullBool _ b => RBool b
  | ABoolValid, GNullBool ok _ => RBool ok
  | (AFloat64 | AIntoFloat64), GNullFloat _ t => RFloat t
  | AFloat64Valid, GNullFloat ok _ => RBool ok
  | (AInt | AInt64 | AIntoInt | AIntoInt64 | AIntoInt32), GNullInt _ z => RInt z
  | (AIntValid | AInt64Valid), GNullInt ok _ => RBool ok
  | (AString | AIntoString), GNullString _ s => RString s
  | AStringValid, GNullString ok _ => RBool ok
  | (ATime | AIntoTime), GNullTime _ t => RTime t
  | ATimeValid, GNullTime ok _ => RBool ok
  | (ANullBool | ANullFloat64 | ANullInt64 | ANullString | ANullTime | AIntoNullBool | AIntoNullFloat64
     | AIntoNullInt32 | AIntoNullInt64 | AIntoNullString | AIntoNullTime), v => RNull v
  | ABytes, GBytes b => RBytes b
  | AJSON, GBytes b => RJSON b
  | APtr _, v => RAny v
  | _, _ => RNothing
  end.
(** ScanInto, ScanArray and ScanJSON do nothing to the variable in the passive phase. *)
Definition stores (a : accessor) : bool :=
  match a with
  | AJSON | AIntoBool | AIntoNullBool | AIntoFloat64 | AIntoNullFloat64 | AIntoInt | AIntoInt32 | AIntoNullInt32
  | AIntoInt64 | AIntoNullInt64 | AIntoString | AIntoNullString | AIntoTime | AIntoNullTime | APtr _ => true
  | _ => false
  end.

Section Row.
  Context {A : Type}.
  (** Whether json.Unmarshal accepts a document for this variable; the error otherwise. *)
  Variable json_error : bytes -> option nat.
  (** One call (67-138, 141-152, 155-171, 173-323).  ScanJSON panics with the error of Unmarshal (166-169). *)
  Definition access (a : accessor) (f : node) (k : result -> prog A) : prog A :=
    PActive (fun active =>
      PGet (dest_kind a) f (fun v =>
        if active then
          match a, v with
          | AJSON, GBytes b => match json_error b with Some e => PPanicErr (EUser e) | None => k (part a v) end
          | _, _ => k (part a v)
          end
        else k (if stores a then RNothing else part a v))).
  Fixpoint accesses (l : list (accessor * node)) (got : list result) (k : list result -> prog A) : prog A :=
    match l with
    | [] => k got
    | (a, f) :: l => access a f (fun r => accesses l (got ++ [r]) k)
    end.
End Row.
