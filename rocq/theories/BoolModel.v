(** * BoolModel: predicates built with And, Or and Not, and what the tokens of
    SpecBool look like when rendered. *)
From Verif Require Import GoBase QuoteModel SprintModel TokenModel EffectModel RenderModel BuildModel SpecBool.
Local Open Scope m_scope.

(** The calls And(...), Or(...), Not(...) (predicate.go:8-10, 131-137) made to
    build a condition; [None]: Not was applied to something that is no
    predicate of the library. *)
Fixpoint build (atom : nat -> node) (c : cond) : option node :=
  let all := fix all (cs : list cond) : option (list node) :=
    match cs with
    | [] => Some []
    | c :: cs =>
      match build atom c, all cs with
      | Some n, Some ns => Some (n :: ns)
      | _, _ => None
      end
    end in
  match c with
  | CAtom i => Some (atom i)
  | CNot c => match build atom c with Some n => p_not n | None => None end
  | CAnd cs => option_map p_and (all cs)
  | COr cs => option_map p_or (all cs)
  end.

(** An atomic condition: a predicate that is neither a list nor negated, i.e. a
    CustomPredicate (predicate.go:12-17; Eq, IsNull, ... are such) or a
    BooleanField (boolean_field.go). *)
Definition is_atom (n : node) : bool :=
  match n with
  | NPred _ _ _ neg => negb neg
  | NField keepenv neg _ _ => negb keepenv && negb neg
  | _ => false
  end.

(** How a token appears in the SQL. *)
Definition tok_sql (d : dialect) (atom : nat -> node) (x : list bytes) (t : btok) : M :=
  match t with
  | KAtom i => render d (atom i) (ctx None x)
  | KNot => emit (B "NOT ")
  | KAnd => emit (B " AND ")
  | KOr => emit (B " OR ")
  | KLp => emit (B "(")
  | KRp => emit (B ")")
  end.
Definition toks_sql (d : dialect) (atom : nat -> node) (x : list bytes) (ts : list btok) : M :=
  seqs (map (tok_sql d atom x) ts).
