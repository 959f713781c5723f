(** * SpecRow: what the accessors of a row mean *)
From Verif Require Import GoBase QuoteModel SprintModel TokenModel EffectModel RenderModel BuildModel FetchModel SpecFetch RowModel.

(** A column of a result row: NULL or a value that fits the accessor (floats
    and times as text). *)
Inductive cell := CNull | CBool (b : bool) | CFloat (t : bytes) | CInt (z : Z) | CString (s : bytes) | CTime (t : bytes)
| CBytes (b : bytes) | CAny (v : gval).
(** The value, or the zero value of the type for NULL. *)
Definition as_bool c := match c with CBool b => b | _ => false end.
Definition as_float c := match c with CFloat t => t | _ => B "0" end.
Definition as_int c := match c with CInt z => z | _ => 0%Z end.
Definition as_string c := match c with CString s => s | _ => [] end.
Definition as_time c := match c with CTime t => t | _ => [] end.
Definition as_bytes c := match c with CBytes b => b | _ => [] end.
Definition not_null c := match c with CNull => false | _ => true end.
Definition null_bool c := GNullBool (not_null c) (as_bool c).
Definition null_float c := GNullFloat (not_null c) (as_float c).
Definition null_int c := GNullInt (not_null c) (as_int c).
Definition null_string c := GNullString (not_null c) (as_string c).
Definition null_time c := GNullTime (not_null c) (as_time c).

(** database/sql: what Scan stores for a cell in a destination of that type;
    [None]: it fails. *)
Definition scanned (k : kind) (c : cell) : option gval :=
  match k, c with
  | KBool, (CNull | CBool _) => Some (null_bool c)
  | KFloat64, (CNull | CFloat _) => Some (null_float c)
  | KInt64, (CNull | CInt _) | KInt32, CNull => Some (null_int c)
  | KInt32, CInt z => if (- 2 ^ 31 <=? z)%Z && (z <? 2 ^ 31)%Z then Some (null_int c) else None
  | KString, (CNull | CString _) => Some (null_string c)
  | KTime, (CNull | CTime _) => Some (null_time c)
  | KBytes, (CNull | CBytes _) => Some (GBytes (as_bytes c))
  | KPtr _, CAny v => Some v
  | _, _ => None
  end.

(** What each accessor gives for a cell. *)
Definition means (a : accessor) (c : cell) : result :=
  match a with
  | ABool | AIntoBool => RBool (as_bool c)
  | AFloat64 | AIntoFloat64 => RFloat (as_float c)
  | AInt | AInt64 | AIntoInt | AIntoInt64 | AIntoInt32 => RInt (as_int c)
  | AString | AIntoString => RString (as_string c)
  | ATime | AIntoTime => RTime (as_time c)
  | ABoolValid | AFloat64Valid | AIntValid | AInt64Valid | AStringValid | ATimeValid => RBool (not_null c)
  | ANullBool | AIntoNullBool => RNull (null_bool c)
  | ANullFloat64 | AIntoNullFloat64 => RNull (null_float c)
  | ANullInt64 | AIntoNullInt32 | AIntoNullInt64 => RNull (null_int c)
  | ANullString | AIntoNullString => RNull (null_string c)
  | ANullTime | AIntoNullTime => RNull (null_time c)
  | ABytes => RBytes (as_bytes c)
  | AJSON => RJSON (as_bytes c)
  | APtr _ => match c with CAny v => RAny v | _ => RNothing end
  end.

(** The cells an accessor takes: its type says which. *)
Definition fits (a : accessor) (c : cell) : Prop :=
  match a, c with
  | APtr _, CAny _ => True
  | APtr _, _ | _, CAny _ => False
  | _, CNull => True
  | (ABool | ABoolValid | ANullBool | AIntoBool | AIntoNullBool), CBool _ => True
  | (AFloat64 | AFloat64Valid | ANullFloat64 | AIntoFloat64 | AIntoNullFloat64), CFloat _ => True
  | (AInt | AIntValid | AInt64 | AInt64Valid | ANullInt64 | AIntoInt | AIntoInt64 | AIntoNullInt64), CInt _ => True
  | (AIntoInt32 | AIntoNullInt32), CInt z => (- 2 ^ 31 <= z < 2 ^ 31)%Z
  | (AString | AStringValid | ANullString | AIntoString | AIntoNullString), CString _ => True
  | (ATime | ATimeValid | ANullTime | AIntoTime | AIntoNullTime), CTime _ => True
  | (ABytes | AJSON), CBytes _ => True
  | _, _ => False
  end.
(** The accessors that are given a variable. *)
Definition has_variable (a : accessor) : bool :=
  match a with
  | ABool | ABoolValid | ANullBool | AFloat64 | AFloat64Valid | ANullFloat64 | AInt | AIntValid | AInt64 | AInt64Valid | ANullInt64
  | AString | AStringValid | ANullString | ATime | ATimeValid | ANullTime | ABytes => false
  | _ => true
  end.

(** A mapper that calls some accessors and then does its work in ProcessErr. *)
Record typed_mapping (A : Type) := mk_typed {
  tm_calls : list (accessor * node);
  tm_body : list A -> list result -> list A * verdict }.
Arguments tm_calls {A}. Arguments tm_body {A}. Arguments mk_typed {A}.
Definition typed_mapper {A} (json_error : bytes -> option nat) (m : typed_mapping A) : list A -> prog A :=
  fun h => accesses json_error (tm_calls m) []
    (fun rs => PProcess true (body_prog (tm_body m h rs)) (fun _ => PEnd None)).
Definition asked {A} (m : typed_mapping A) : list (kind * node) := map (fun af => (dest_kind (fst af), snd af)) (tm_calls m).

(** A result row with these cells. *)
Definition row_of (cells : list cell) (kinds : list kind) (vs : list gval) : Prop :=
  Forall2 (fun kc v => scanned (fst kc) (snd kc) = Some v) (combine kinds cells) vs /\ length kinds = length cells.
Definition row_means {A} (m : typed_mapping A) (cells : list cell) : list result :=
  map (fun ac => means (fst (fst ac)) (snd ac)) (combine (tm_calls m) cells).
(** What is done after these rows. *)
Definition typed_after {A} (m : typed_mapping A) (h : list A) (rows : list (list cell)) : list A :=
  fold_left (fun h cs => h ++ fst (tm_body m h (row_means m cs))) rows h.
Fixpoint typed_continue {A} (m : typed_mapping A) (h : list A) (rows : list (list cell)) : Prop :=
  match rows with
  | [] => True
  | cs :: rows => snd (tm_body m h (row_means m cs)) = Continue /\ typed_continue m (h ++ fst (tm_body m h (row_means m cs))) rows
  end.
(** The JSON documents of a row are valid. *)
Definition json_fine {A} (json_error : bytes -> option nat) (m : typed_mapping A) (cells : list cell) : Prop :=
  forall f c, In ((AJSON, f), c) (combine (tm_calls m) cells) -> json_error (as_bytes c) = None.
