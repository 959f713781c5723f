(** * SpecView: what the DDL method of a view should do *)
From Coq Require Import Permutation.
From Verif Require Import GoBase QuoteModel UpsertModel TokenModel DdlModel MigrateModel TriggerModel ViewModel.

(** The column a field of the query gives: its alias, or else its name. *)
Definition fetched (f : fetch_field) : bytes := match ff_alias f with [] => ff_name f | a => a end.
(** The columns of the view struct. *)
Definition struct_columns (fs : list view_field) : list bytes :=
  flat_map (fun f => match f with VFColumn n => [n] | _ => [] end) fs.
(** A query the view accepts: it has a text, every field has a name, and the
    fields are the columns of the struct, in any order. *)
Definition query_ok (want : list bytes) (q : option (option bytes * option (list fetch_field))) : Prop :=
  exists text fs, q = Some (Some text, Some fs) /\ Forall (fun f => fetched f <> []) fs /\ Permutation want (map fetched fs).
Definition query_text (q : option (option bytes * option (list fetch_field))) : bytes :=
  match q with Some (Some text, _) => text | _ => [] end.
(** The calls of one kind. *)
Definition index_calls (ddl : list v_call) : list index_call := flat_map (fun c => match c with VIndex i => [i] | _ => [] end) ddl.
Definition trigger_calls (ddl : list v_call) : list (option bytes) := flat_map (fun c => match c with VTrigger t => [t] | _ => [] end) ddl.
Definition query_calls (ddl : list v_call) : list bytes := flat_map (fun c => match c with VSetQuery q => [query_text q] | _ => [] end) ddl.
(** The trigger a call declares (see C44). *)
Definition declared (text : option bytes) (g : trigger) : Prop :=
  exists t, text = Some t /\ trigger_info (S (length (trim_space t))) DPostgres (trim_space t) = LOk g.
(** One trigger per schema, table and name: a new one comes last, one declared
    again keeps its place and gets the new text. *)
Fixpoint put_trigger (l : list trigger) (g : trigger) : list trigger :=
  match l with
  | [] => [g]
  | h :: l' => if key_eqb (key_of h) (key_of g) then mk_trigger (g_schema h) (g_table h) (g_name h) (g_sql g) (g_ignore h) :: l'
               else h :: put_trigger l' g
  end.
(** Every index is defined after IsMaterialized. *)
Definition materialized_first (ddl : list v_call) : Prop :=
  forall before name columns exprs after, ddl = before ++ VIndex (IDefine name columns exprs) :: after -> In VMaterialized before.
