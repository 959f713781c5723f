(** * SpecShared: what a call of an introspector sends, with nobody else around *)
From Verif Require Import GoBase QuoteModel TemplateModel SharedModel.

(** The query made from the script of that name (C63), if there is one. *)
Definition expected (files : bytes -> option bytes) (default : option filter) (c : call) : answer :=
  match files (c_name c) with
  | Some script => match query_text default (c_filter c) script with Some text => Sent text | None => Refused end
  | None => Refused
  end.
