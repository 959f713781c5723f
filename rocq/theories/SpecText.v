(** * SpecText: the text of a rendering that binds no values *)
From Verif Require Import GoBase EffectModel.

(** The bytes written, if everything written is plain text and the status is nil. *)
Fixpoint texts (cs : list cmd) : option bytes :=
  match cs with
  | [] => Some []
  | CText b :: cs => option_map (app b) (texts cs)
  | _ :: _ => None
  end.
Definition text_of (m : M) : option bytes :=
  match snd m with SOk => texts (fst m) | _ => None end.
