(** * SpecQuery: set operations, output columns, CASE

    The first part does not refer to the library. *)
From Verif Require Import GoBase QuoteModel SprintModel TokenModel EffectModel RenderModel.

(** ** Set operations (C23) *)
Inductive setop := OUnion | OUnionAll | OIntersect | OIntersectAll | OExcept | OExceptAll.
Definition op_sql (o : setop) : bytes :=
  match o with
  | OUnion => B "UNION" | OUnionAll => B "UNION ALL"
  | OIntersect => B "INTERSECT" | OIntersectAll => B "INTERSECT ALL"
  | OExcept => B "EXCEPT" | OExceptAll => B "EXCEPT ALL"
  end.
(** An expression over queries numbered by [nat], and its tokens. *)
Inductive sexp := EQuery (i : nat) | EOp (o : setop) (a b : sexp).
Inductive stok := TQuery (i : nat) | TOp (o : setop) | TLp | TRp.

(** How a database reads the tokens: operators associate to the left; some
    operators ([tight]: INTERSECT in postgres and mysql, none in sqlite) bind
    tighter than the others.
      loose ::= term (looseop term)*     term ::= prim (tightop prim)*
      prim ::= query | "(" loose ")"  *)
Inductive smode := MLoose | MLooseRest (e : sexp) | MTerm | MTermRest (e : sexp) | MPrim.
Fixpoint sparse (tight : setop -> bool) (fuel : nat) (m : smode) (ts : list stok)
  : option (sexp * list stok) :=
  match fuel with
  | 0 => None
  | S f =>
    match m with
    | MLoose =>
      match sparse tight f MTerm ts with
      | Some (a, rest) => sparse tight f (MLooseRest a) rest
      | None => None
      end
    | MLooseRest a =>
      match ts with
      | TOp o :: rest =>
        if tight o then Some (a, ts)
        else match sparse tight f MTerm rest with
             | Some (b, rest') => sparse tight f (MLooseRest (EOp o a b)) rest'
             | None => None
             end
      | _ => Some (a, ts)
      end
    | MTerm =>
      match sparse tight f MPrim ts with
      | Some (a, rest) => sparse tight f (MTermRest a) rest
      | None => None
      end
    | MTermRest a =>
      match ts with
      | TOp o :: rest =>
        if tight o then
          match sparse tight f MPrim rest with
          | Some (b, rest') => sparse tight f (MTermRest (EOp o a b)) rest'
          | None => None
          end
        else Some (a, ts)
      | _ => Some (a, ts)
      end
    | MPrim =>
      match ts with
      | TQuery i :: rest => Some (EQuery i, rest)
      | TLp :: rest =>
        match sparse tight f MLoose rest with
        | Some (a, TRp :: rest') => Some (a, rest')
        | _ => None
        end
      | _ => None
      end
    end
  end.
Definition set_reads_as (tight : setop -> bool) (ts : list stok) (e : sexp) : Prop :=
  exists fuel, sparse tight fuel MLoose ts = Some (e, []).

(** What a user writes with Union(...), Except(...), ... *)
Inductive qtree := QQuery (i : nat) | QSet (o : setop) (ts : list qtree).
(** Op(t1, ..., tn) means (...(t1 op t2) op ...) op tn. *)
Fixpoint set_meaning (t : qtree) : sexp :=
  match t with
  | QQuery i => EQuery i
  | QSet o [] => EQuery 0                       (* excluded by [set_ok] *)
  | QSet o (t :: ts) => fold_left (fun a t => EOp o a (set_meaning t)) ts (set_meaning t)
  end.
Fixpoint set_ok (t : qtree) : bool :=
  match t with
  | QQuery _ => true
  | QSet _ ts => match ts with [] => false | _ => forallb set_ok ts end
  end.

(** The library's representation ([Union], ..., variadic_query.go:100-122). *)
Fixpoint build_set (query : nat -> node) (t : qtree) : node :=
  match t with
  | QQuery i => query i
  | QSet o ts => NVQuery true (op_sql o) (map (build_set query) ts)
  end.
Definition stok_sql (d : dialect) (query : nat -> node) (t : stok) : M :=
  match t with
  | TQuery i => render d (query i) (ctx None [])
  | TOp o => emit (B " " ++ op_sql o ++ B " ")
  | TLp => emit (B "(")
  | TRp => emit (B ")")
  end.
Definition stoks_sql (d : dialect) (query : nat -> node) (ts : list stok) : M :=
  seqs (map (stok_sql d query) ts).

(** ** The columns a query produces (C24) *)
(** A SELECT produces its fields, INSERT/UPDATE/DELETE their RETURNING fields in
    the dialects that have RETURNING, a set operation those of its first operand. *)
Inductive produces : node -> list node -> Prop :=
| pr_select q : produces (NSelect q) (sq_fields q)
| pr_insert q : In (iq_dialect q) [B "postgres"; B "sqlite"] -> produces (NInsert q) (iq_returning q)
| pr_update q : In (uq_dialect q) [B "postgres"; B "sqlite"] -> produces (NUpdate q) (uq_returning q)
| pr_delete q : In (dq_dialect q) [B "postgres"; B "sqlite"] -> produces (NDelete q) (dq_returning q)
| pr_setop top op q qs fs : produces q fs -> produces (NVQuery top op (q :: qs)) fs.
(** A column is known by its alias, or its name if it has no alias. *)
Definition column_name (f : node) : bytes := match get_alias f with [] => get_name f | a => a end.
(** The query has named output columns, [name] among them. *)
Definition has_column (q : node) (name : bytes) : Prop :=
  exists fs, produces q fs /\ Forall (fun f => column_name f <> []) fs /\ In name (map column_name fs).

(** ** CASE (C25) *)
Local Open Scope m_scope.
Definition when_then_sql (d : dialect) (c : rctx) (b : node * node) : M :=
  emit (B " WHEN ") ;; render d (fst b) (ctx (c_env c) (c_excl c)) ;;
  emit (B " THEN ") ;; render d (snd b) (ctx (c_env c) (c_excl c)).
(** Else(nil) is no ELSE (both mean NULL). *)
Definition else_sql (d : dialect) (c : rctx) (f : option node) : M :=
  match f with
  | None => ret
  | Some f => when (negb (is_nil f)) (emit (B " ELSE ") ;; render d f (ctx (c_env c) (c_excl c)))
  end.

(** ** Column mappers (C22) *)
(** The Set calls of a mapper that sets the columns [fs] in order, once per row. *)
Definition mapper_calls (fs : list node) (rows : list (list node)) : list (node * node) :=
  flat_map (combine fs) rows.
(** The calls for one row: the first names the column [n0], none after it does. *)
Definition call_group (n0 : bytes) (g : list (node * node)) : Prop :=
  exists f v tl, g = (f, v) :: tl /\ get_name f = n0 /\ ~ In n0 (map (fun c => get_name (fst c)) tl).
(** The same INSERT with Columns(...) and Values(...) instead of the mapper. *)
Definition with_rows (q : insert_ node) (columns : list node) (rows : list (list node)) : insert_ node :=
  mk_insert (iq_dialect q) (iq_env q) None (iq_ctes q) (iq_ignore q) (iq_into q) columns rows
    (iq_rowalias q) (iq_colaliases q) (iq_select q) (iq_constraint q) (iq_cfields q) (iq_cpred q)
    (iq_nothing q) (iq_resolution q) (iq_rpred q) (iq_returning q).
(** The same UPDATE with Set(...) instead of the mapper. *)
Definition with_assigns (q : update_ node) (calls : list (node * node)) : update_ node :=
  mk_update (uq_dialect q) (uq_env q) None (uq_ctes q) (uq_table q) (uq_from q) (uq_joins q) calls
    (uq_where q) (uq_order q) (uq_limit q) (uq_offset q) (uq_returning q).
