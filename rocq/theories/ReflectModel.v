(** * ReflectModel: ReflectTable (reflect_table.go) *)
From Verif Require Import GoBase QuoteModel SprintModel TokenModel EffectModel RenderModel BuildModel
  UpsertModel NameModel DdlModel LoadModel FieldModel.

(** [strings.ToLower].  Simplification: ASCII only. *)
Definition lower (c : ascii) : ascii := if in_range 65 90 (ord c) then chr (ord c + 32)%N else c.
Definition to_lower (s : bytes) : bytes := map lower s.

(** What the library sees of a Go struct through reflect.  The types of fields:
    the seven that ddl distinguishes, CustomField, any other implementation of
    sq.Field (a value type). *)
Inductive go_kind := GKind (k : field_kind) | GCustom | GForeign.
Inductive go_value :=
| VTableInfo (tschema tname talias : bytes)
| VField (k : go_kind) (n : node)
| VOther.
Record go_field := mk_go_field {
  gf_name : bytes;                       (* the Go name *)
  gf_exported : bool;                    (* CanInterface, CanSet *)
  gf_embedded : bool;
  gf_sq : bytes; gf_ddl : bytes;         (* the values of the tags sq and ddl *)
  gf_value : go_value }.
(** The argument of ReflectTable: not a pointer, a pointer to something else, a
    pointer to a struct of a type of that name. *)
Inductive go_table := TNoPointer | TNoStruct | TStruct (type_name : bytes) (fields : list go_field).

Definition set_value (f : go_field) (v : go_value) : go_field :=
  mk_go_field (gf_name f) (gf_exported f) (gf_embedded f) (gf_sq f) (gf_ddl f) v.
Definition read_tag (tag : bytes) : lexres (list (bytes * bytes)) := lex_modifiers (S (length tag)) tag [].

(** reflect_table.go:58-103: the loop over the fields.  The types of the switch
    at 85-102 are all but [GForeign]; [KOther] is no Go type (see [GCustom]). *)
Fixpoint reflect_fields (tschema tname talias : bytes) (fs : list go_field) : list go_field * lexres unit :=
  match fs with
  | [] => ([], LOk tt)
  | f :: fs' =>
    let skip := let r := reflect_fields tschema tname talias fs' in (f :: fst r, snd r) in
    if negb (gf_exported f) then skip                                     (* 60-62 *)
    else match gf_value f with
    | VField k n =>
      if negb (is_empty (get_name n)) then skip                           (* 67-69 *)
      else match read_tag (gf_sq f) with
      | LOk ms =>
        let name := match modifier_value (B "name") ms with Some v => v | None => [] end in
        let name := if is_empty name then to_lower (gf_name f) else name in
        let f' := match k with
                  | GForeign => f
                  | _ => set_value f (VField k (new_field name tschema tname talias))
                  end in
        let r := reflect_fields tschema tname talias fs' in (f' :: fst r, snd r)
      | LErr => (fs, LErr)
      | LPanic => (fs, LPanic)
      | LDiverge => (fs, LDiverge)
      end
    | _ => skip                                                           (* 63-66 *)
    end
  end.

(** reflect_table.go:11-105 [ReflectTable]: the struct afterwards and the outcome. *)
Definition reflect_table (alias : bytes) (t : go_table) : go_table * lexres unit :=
  match t with
  | TNoPointer | TNoStruct => (t, LErr)                                   (* 14-21 *)
  | TStruct ty [] => (t, LErr)                                            (* 22-24 *)
  | TStruct ty (f :: fs) =>
    if negb (gf_exported f) then (t, LPanic)                              (* 27: Interface() of an unexported field *)
    else match gf_value f with
    | VTableInfo s n _ =>
      if negb (gf_embedded f) then (t, LErr)                              (* 31-33 *)
      else match (if is_empty s || is_empty n then read_tag (gf_sq f) else LOk []) with
      | LOk ms =>
        let s' := if is_empty s then match modifier_value (B "schema") ms with Some v => v | None => s end else s in
        let n' := if is_empty n then match modifier_value (B "name") ms with Some v => v | None => n end else n in
        let n' := if is_empty n' then to_lower ty else n' in
        let r := reflect_fields s' n' alias fs in
        (TStruct ty (set_value f (VTableInfo s' n' alias) :: fst r), snd r)
      | LErr => (t, LErr)
      | LPanic => (t, LPanic)
      | LDiverge => (t, LDiverge)
      end
    | _ => (t, LErr)                                                      (* 28-30 *)
    end
  end.

(** How ddl's LoadTable sees the struct (ddl/t.go:744-779, ddl/ddl.go:77-120):
    its fields, and the schema and name that the embedded TableInfo returns
    (table_info.go:18-20). *)
Definition load_field (f : go_field) : struct_field :=
  match gf_value f with
  | VField k n =>
    if gf_exported f then SColumn (get_name n) (match k with GKind k => k | _ => KOther end) (gf_ddl f)
    else SOther (gf_ddl f)
  | _ => SOther (gf_ddl f)
  end.
