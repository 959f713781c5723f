(** * SpecBool: three-valued boolean expressions and their SQL syntax

    Nothing here refers to the library.  [btok] are the tokens of a boolean SQL
    expression over opaque atomic conditions, [parse] reads them with the
    standard precedences (NOT binds tighter than AND, AND tighter than OR). *)
From Coq Require Import List.
Import ListNotations.

(** SQL truth values: true, false, unknown. *)
Inductive tv := TT | FF | UU.
Definition tnot (a : tv) : tv := match a with TT => FF | FF => TT | UU => UU end.
Definition tand (a b : tv) : tv :=
  match a, b with FF, _ | _, FF => FF | TT, TT => TT | _, _ => UU end.
Definition tor (a b : tv) : tv :=
  match a, b with TT, _ | _, TT => TT | FF, FF => FF | _, _ => UU end.

(** Boolean expressions over atoms numbered by [nat]. *)
Inductive bexp :=
| BAtom (i : nat)
| BNot (a : bexp)
| BAnd (a b : bexp)
| BOr (a b : bexp).
Fixpoint beval (v : nat -> tv) (b : bexp) : tv :=
  match b with
  | BAtom i => v i
  | BNot a => tnot (beval v a)
  | BAnd a b => tand (beval v a) (beval v b)
  | BOr a b => tor (beval v a) (beval v b)
  end.

Inductive btok := KAtom (i : nat) | KNot | KAnd | KOr | KLp | KRp.

(** expr ::= conj | conj OR expr;  conj ::= neg | neg AND conj;
    neg ::= atom | NOT neg | "(" expr ")". *)
Inductive level := LOr | LAnd | LNot.
Fixpoint parse (fuel : nat) (l : level) (ts : list btok) : option (bexp * list btok) :=
  match fuel with
  | 0 => None
  | S f =>
    match l with
    | LOr =>
      match parse f LAnd ts with
      | Some (a, KOr :: rest) =>
        match parse f LOr rest with
        | Some (b, rest') => Some (BOr a b, rest')
        | None => None
        end
      | r => r
      end
    | LAnd =>
      match parse f LNot ts with
      | Some (a, KAnd :: rest) =>
        match parse f LAnd rest with
        | Some (b, rest') => Some (BAnd a b, rest')
        | None => None
        end
      | r => r
      end
    | LNot =>
      match ts with
      | KAtom i :: rest => Some (BAtom i, rest)
      | KNot :: rest =>
        match parse f LNot rest with
        | Some (a, rest') => Some (BNot a, rest')
        | None => None
        end
      | KLp :: rest =>
        match parse f LOr rest with
        | Some (a, KRp :: rest') => Some (a, rest')
        | _ => None
        end
      | _ => None
      end
    end
  end.
(** The whole token list is one expression.  ([fuel] only bounds the search:
    two fuels never give two results, [reads_as_unique] in BoolFacts.) *)
Definition reads_as (ts : list btok) (b : bexp) : Prop :=
  exists fuel, parse fuel LOr ts = Some (b, []).

(** What a user writes with And, Or and Not. *)
Inductive cond :=
| CAtom (i : nat)
| CNot (c : cond)
| CAnd (cs : list cond)
| COr (cs : list cond).
Fixpoint meaning (v : nat -> tv) (c : cond) : tv :=
  match c with
  | CAtom i => v i
  | CNot c => tnot (meaning v c)
  | CAnd cs => fold_right (fun c r => tand (meaning v c) r) TT cs
  | COr cs => fold_right (fun c r => tor (meaning v c) r) FF cs
  end.

(** An atom, possibly negated. *)
Fixpoint atomic (c : cond) : bool :=
  match c with CAtom _ => true | CNot c => atomic c | _ => false end.
(** Negated an odd number of times. *)
Fixpoint negated (c : cond) : bool :=
  match c with CNot c => negb (negated c) | _ => false end.
(** The conditions for which rendering is claimed to keep the meaning: no And or
    Or is empty, and the only operand of a one-element And/Or is not a negated
    And/Or. *)
Fixpoint supported (c : cond) : bool :=
  match c with
  | CAtom _ => true
  | CNot c => supported c
  | CAnd cs | COr cs =>
    match cs with
    | [] => false
    | [c] => supported c && (atomic c || negb (negated c))
    | _ => forallb supported cs
    end
  end.
