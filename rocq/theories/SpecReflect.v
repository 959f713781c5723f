(** * SpecReflect: what ReflectTable makes of a table struct *)
From Verif Require Import GoBase SpecSprintf SpecToken QuoteModel SprintModel EffectModel RenderModel LoadModel ReflectModel.

(** A tag: modifiers separated by blanks. *)
Inductive tag_text : list modifier -> bytes -> Prop :=
| tt_none : tag_text [] []
| tt_some b m ms s : blanks b -> mod_ok m -> mods_text ms s -> tag_text (m :: ms) (b ++ mod_text m ++ s).

(** The value of the last modifier of that name. *)
Fixpoint last_value (k : bytes) (ms : list modifier) : option bytes :=
  match ms with
  | [] => None
  | m :: rest =>
    match last_value k rest with
    | Some v => Some v
    | None => if beqb (fst (mod_pair m)) k then Some (snd (mod_pair m)) else None
    end
  end.
(** The first of these texts that is not empty. *)
Fixpoint first_nonempty (l : list bytes) : bytes :=
  match l with
  | [] => []
  | [] :: rest => first_nonempty rest
  | b :: _ => b
  end.
Definition said (k : bytes) (ms : list modifier) : bytes := match last_value k ms with Some v => v | None => [] end.

(** A field that gets a name: exported, of one of the library's field types, not yet named. *)
Definition to_be_named (f : go_field) : bool :=
  gf_exported f && match gf_value f with
                   | VField GForeign _ => false
                   | VField _ n => is_empty (get_name n)
                   | _ => false
                   end.
(** A column field of a freshly declared struct, or no column at all. *)
Definition fresh_field (f : go_field) : Prop :=
  match gf_value f with
  | VField k n => gf_exported f = true -> k <> GForeign /\ get_name n = []
  | _ => True
  end.
Definition column_nodes (fs : list go_field) : list node :=
  flat_map (fun f => match gf_value f with VField _ n => if gf_exported f then [n] else [] | _ => [] end) fs.
