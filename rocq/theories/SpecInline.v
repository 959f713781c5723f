(** * SpecInline: a rendered text with its values written at their places.

    Rendering leaves a sequence of texts and placeholders; each placeholder
    remembers the value that stood at that place of the tree (EffectModel).  The
    inlined text has that value's literal there. *)
From Verif Require Import GoBase QuoteModel SprintModel SpecSprintf EffectModel.

(** The literal of a value, if it has one (which literal: C04). *)
Definition literal (d : dialect) (v : gval) : option bytes :=
  match sprint d v with Ok t => Some t | _ => None end.

Fixpoint with_values (d : dialect) (places : list chunk) : option bytes :=
  match places with
  | [] => Some []
  | k :: rest =>
    let here := match k with KText b => Some b | KOrd _ v | KMark v | KNamed _ v => literal d v end in
    match here, with_values d rest with
    | Some a, Some b => Some (a ++ b)
    | _, _ => None
    end
  end.

(** [laid_out d places segs]: the texts between the placeholders, read with the
    quoting rules of the dialect, are the segments [segs] (SpecSprintf); the
    texts hold no placeholders of their own. *)
Definition is_text (k : chunk) : bool := match k with KText _ => true | _ => false end.
Definition no_placeholder (s : seg) : bool := match s with Text _ | Quoted _ _ => true | _ => false end.
Definition same_placeholder (d : dialect) (k : chunk) (s : seg) : Prop :=
  match k, s with
  | KOrd i _, Ordinal n => n = i
  | KMark _, Anon => True
  | KNamed name _, NamedP sigil rs =>
    sigil = (if is_sqlserver d then R "@" else if is_sqlite d then R "$" else R ":") /\ string_of_runes rs = name
  | _, _ => False
  end.
Inductive laid_out (d : dialect) : list chunk -> list seg -> Prop :=
| lo_end : laid_out d [] []
| lo_text ts ss places segs : forallb is_text ts = true -> forallb no_placeholder ss = true ->
    out_text d ts = string_of_runes (src d ss) ->
    laid_out d places segs -> laid_out d (ts ++ places) (ss ++ segs)
| lo_placeholder k s places segs : same_placeholder d k s ->
    laid_out d places segs -> laid_out d (k :: places) (s :: segs).

(** Two sql.NamedArgs of the same name have the same value. *)
Definition one_value_per_name (args : list gval) : Prop :=
  forall name v w, In (GNamedArg name v) args -> In (GNamedArg name w) args -> v = w.
