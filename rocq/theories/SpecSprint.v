(** * SpecSprint: which SQL literal stands for a Go value *)
From Verif Require Import GoBase SpecLex QuoteModel SprintModel.

(** Pointers to nil interfaces and to invalid [sql.Null*] values are excluded
    below: the code rejects them (see DESIGN.md, findings). *)
Definition pointable (v : gval) : bool :=
  match v with
  | GNil | GNullBool false _ | GNullFloat false _ | GNullInt false _
  | GNullString false _ | GNullTime false _ => false
  | _ => true
  end.

(** [denotes d v l]: in dialect [d] the Go value [v] should appear as the
    literal [l].  Strings containing a doubled quote followed by further text
    are excluded here (EscapeQuote alters them; see C02). *)
Inductive denotes (d : dialect) : gval -> lit -> Prop :=
| dn_nil : denotes d GNil LNull
| dn_bool b : denotes d (GBool b) (LBool b)
| dn_bytes bs : denotes d (GBytes bs) (LBlob bs)
| dn_string s : ~ has_inner_pair "'" s -> denotes d (GString s) (LStr s)
| dn_time t : ~ In "'"%char t -> denotes d (GTime t) (LStr t)
| dn_int z : denotes d (GInt z) (LInt z)
| dn_uint n : denotes d (GUint n) (LInt (Z.of_N n))
| dn_named n v l : denotes d v l -> denotes d (GNamedArg n v) l
| dn_nbool b : denotes d (GNullBool true b) (LBool b)
| dn_nint z : denotes d (GNullInt true z) (LInt z)
| dn_nstring s : ~ has_inner_pair "'" s -> denotes d (GNullString true s) (LStr s)
| dn_ntime t : ~ In "'"%char t -> denotes d (GNullTime true t) (LStr t)
| dn_null_bool b : denotes d (GNullBool false b) LNull
| dn_null_float t : denotes d (GNullFloat false t) LNull
| dn_null_int z : denotes d (GNullInt false z) LNull
| dn_null_string s : denotes d (GNullString false s) LNull
| dn_null_time t : denotes d (GNullTime false t) LNull
| dn_valuer_int z : denotes d (GValuer (Some (GInt z))) (LInt z)
| dn_valuer_bool b : denotes d (GValuer (Some (GBool b))) (LBool b)
| dn_valuer_string s : ~ has_inner_pair "'" s -> denotes d (GValuer (Some (GString s))) (LStr s)
| dn_valuer_time t : ~ In "'"%char t -> denotes d (GValuer (Some (GTime t))) (LStr t)
| dn_valuer_bytes bs : d <> DPostgres -> denotes d (GValuer (Some (GBytes bs))) (LBlob bs)
| dn_ptr v l : denotes d v l -> pointable v = true -> denotes d (GPtr v) l.

(** Text that may follow a literal without being read as part of it. *)
Definition after_literal (rest : bytes) : Prop :=
  ends_word rest /\ not_starting_with "'" rest /\ has_prefix (B "::BYTEA") rest = false.

(** The value is (or wraps) a nil pointer to a type implementing [driver.Valuer]. *)
Fixpoint has_nil_valuer (v : gval) : bool :=
  match v with
  | GNilPtr valuer => valuer
  | GNamedArg _ w => has_nil_valuer w
  | GPtr w => has_nil_valuer w
  | _ => false
  end.
