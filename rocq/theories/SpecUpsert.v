(** * SpecUpsert: what a sequence of defining calls should leave behind (C38) *)
From Verif Require Import GoBase QuoteModel CacheModel UpsertModel.

Definition defined_name (c : constraint_call) : option bytes :=
  match c with
  | CDefine _ name _ _ | CExclude name _ _ _ _ => Some name
  | CAttr _ _ => None
  end.
(** [call] is the last call in [calls] that defines [name]. *)
Definition last_definition (calls : list constraint_call) (name : bytes) (call : constraint_call) : Prop :=
  exists before after, calls = before ++ call :: after /\ defined_name call = Some name /\
    Forall (fun c => defined_name c <> Some name) after.
(** The constraint is as the call says. *)
Definition as_called (call : constraint_call) (c : constraint) : Prop :=
  match call with
  | CDefine ty name columns check =>
    c_name c = name /\ c_type c = ty /\ c_columns c = columns /\ c_check c = check
  | CExclude name ixt columns exprs operators =>
    c_name c = name /\ c_type c = B "EXCLUDE" /\ c_columns c = columns /\ c_exprs c = exprs /\
    c_operators c = operators /\ c_index_type c = ixt
  | CAttr _ _ => False
  end.
(** A Config function that leaves alone what the defining call set. *)
Definition modest (call : constraint_call) : Prop :=
  match call with
  | CAttr _ (AConfig f) => forall c,
      c_type (f c) = c_type c /\ c_columns (f c) = c_columns c /\ c_check (f c) = c_check c /\
      c_exprs (f c) = c_exprs c /\ c_operators (f c) = c_operators c /\ c_index_type (f c) = c_index_type c /\
      c_ignore (f c) = c_ignore c
  | _ => True
  end.

Definition defined_index (c : index_call) : option bytes :=
  match c with IDefine name _ _ => Some name | IAttr _ _ => None end.
Definition last_index_definition (calls : list index_call) (name : bytes) (call : index_call) : Prop :=
  exists before after, calls = before ++ call :: after /\ defined_index call = Some name /\
    Forall (fun c => defined_index c <> Some name) after.
Definition index_as_called (call : index_call) (x : index) : Prop :=
  match call with
  | IDefine name columns exprs => x_name x = name /\ x_columns x = columns /\ x_exprs x = exprs
  | IAttr _ _ => False
  end.
Definition modest_index (call : index_call) : Prop :=
  match call with
  | IAttr _ (IConfig f) => forall x,
      x_columns (f x) = x_columns x /\ x_exprs (f x) = x_exprs x /\ x_ignore (f x) = x_ignore x
  | _ => True
  end.
