(** * SpecNames: when parameter names are used consistently.

    [well_named val n]: in the tree [n]
    - every named parameter / sql.NamedArg called [name] carries the value
      [val name], and no such name is a numeral (numerals are ordinals);
    - a format that refers to its values by ordinal ({1}, {2}, ...) does not
      contain, inside those values, another format that does so;
    - the same for the fields of a window, whose errors are ignored. *)
From Verif Require Import GoBase QuoteModel SprintModel TokenModel EffectModel RenderModel NodeInd.

(** The format refers to a value by ordinal. *)
Definition uses_ordinal (format : bytes) : Prop :=
  exists body, In (FRef body) (format_items (length format) format) /\ atoi (ref_name body) <> None.

(** The formats a node is rendered with. *)
Definition formats_of (n : node) : list (bytes * list node) :=
  match n with
  | NField _ _ fi vals => map (fun kf => (snd kf, vals)) (fi_formats fi)
  | NCTEField _ _ fi | NSubField _ _ fi => map (fun kf => (snd kf, [])) (fi_formats fi)
  | NPred _ f vals _ | NTablef f vals | NQueryf _ f vals => [(f, vals)]
  | _ => []
  end.

Definition no_ordinals (n : node) : Prop :=
  forall f vals, In (f, vals) (formats_of n) -> ~ uses_ordinal f.

Definition well_named_here (val : bytes -> gval) (n : node) : Prop :=
  match n with
  | NParam name (NRaw v) => val name = v /\ atoi name = None
  | NRaw (GNamedArg name v) => val name = GNamedArg name v /\ atoi name = None
  | NWindow p o _ => Forall (everywhere no_ordinals) p /\ Forall (everywhere no_ordinals) o
  | _ => True
  end /\
  forall f vals, In (f, vals) (formats_of n) -> uses_ordinal f -> Forall (everywhere no_ordinals) vals.

Definition well_named (val : bytes -> gval) (n : node) : Prop := everywhere (well_named_here val) n.

(** The first condition alone (enough for '?' dialects). *)
Definition well_named_params (val : bytes -> gval) (n : node) : Prop :=
  everywhere (fun n => match n with
                       | NParam name (NRaw v) => val name = v
                       | NRaw (GNamedArg name v) => val name = GNamedArg name v
                       | _ => True
                       end) n.
