(** * EffectModel: what rendering does to the buffer, the argument slice and
    the params map.

    All AppendSQL methods of the library have the same shape: they write to a
    buffer, append to [args] and update [params], in program order, and return
    early on the first error.  Whether an error occurs never depends on the
    contents of the buffer, [args] or [params].  So each method is modelled by
    the sequence of primitive effects it performs and its final status ([M]),
    and [exec] gives the primitives their meaning. *)
From Verif Require Import GoBase QuoteModel SprintModel.

Inductive cmd :=
| CText (b : bytes)                     (* buf.WriteString *)
| CBind (pname : bytes) (v : gval)      (* fmt.go:151-190 / sq.go:181-189: bind a plain value *)
| CNamedArg (name : bytes) (v : gval)   (* fmt.go:132-145: bind an sql.NamedArg *)
| CParam (name : bytes) (v : gval)      (* param.go:51-76: bind an sq.NamedParam *)
| CDel (names : list bytes).            (* fmt.go:114-116: delete(params, name) *)

(** Result of a method: nil, an error, or a run-time panic. *)
Inductive status := SOk | SErr | SPanic.

Definition M := (list cmd * status)%type.
Definition ret : M := ([], SOk).
Definition fail : M := ([], SErr).
Definition crash : M := ([], SPanic).
Definition emit (b : bytes) : M := ([CText b], SOk).
Definition act (c : cmd) : M := ([c], SOk).
(** [m; if err != nil { return err }; k]. *)
Definition seq (m k : M) : M :=
  match snd m with
  | SOk => (fst m ++ fst k, snd k)
  | s => (fst m, s)
  end.
(** A call whose error is dropped (window.go:20,28). *)
Definition ignore_err (m : M) : M :=
  match snd m with SErr => (fst m, SOk) | _ => m end.
Definition when (b : bool) (m : M) : M := if b then m else ret.
Fixpoint seqs (ms : list M) : M :=
  match ms with [] => ret | m :: ms' => seq m (seqs ms') end.
(** [for i, x := range xs { if i > 0 { buf.WriteString(sep) }; x }]. *)
Definition sep_by (sep : bytes) (ms : list M) : M :=
  match ms with
  | [] => ret
  | m :: ms' => seq m (seqs (map (seq (emit sep)) ms'))
  end.

Declare Scope m_scope.
Delimit Scope m_scope with M.
Notation "m ;; k" := (seq m k) (at level 61, right associativity) : m_scope.

(** ** Meaning of the primitives *)

(** What is written to the buffer.  Placeholders remember the value that stood
    at that place in the tree; this ghost information is not part of the text. *)
Inductive chunk :=
| KText (b : bytes)
| KOrd (i : nat) (v : gval)             (* $(i+1), @p(i+1) *)
| KMark (v : gval)                      (* ? *)
| KNamed (name : bytes) (v : gval).     (* $name, @name, :name *)

Record st := mk_st {
  st_out : list chunk;
  st_args : list gval;
  st_params : list (bytes * list nat) }.
Definition st0 : st := mk_st [] [] [].

(** [params[name]], nil if absent. *)
Definition pget (name : bytes) (m : list (bytes * list nat)) : list nat :=
  match mget name m with Some l => l | None => [] end.

Definition numbered (d : dialect) : bool := is_postgres d || is_sqlite d || is_sqlserver d.

Definition out (s : st) (k : chunk) : st :=
  mk_st (st_out s ++ [k]) (st_args s) (st_params s).

(** [*args = append( *args, v)] together with its placeholder. *)
Definition push (d : dialect) (s : st) (v : gval) (params : list (bytes * list nat)) : st :=
  mk_st (st_out s ++ [if numbered d then KOrd (length (st_args s)) v else KMark v])
        (st_args s ++ [v]) params.

Definition exec1 (d : dialect) (s : st) (c : cmd) : st :=
  match c with
  | CText b => out s (KText b)
  | CBind pname v =>                                             (* fmt.go:154-190 *)
    let indices := if is_empty pname then [] else pget pname (st_params s) in
    if numbered d then
      match indices with
      | i :: _ => out s (KOrd i v)
      | [] => push d s v (if is_empty pname then st_params s
                          else mset pname [length (st_args s)] (st_params s))
      end
    else push d s v (st_params s)
  | CNamedArg name v =>                                          (* fmt.go:132-145 *)
    match pget name (st_params s) with
    | i :: _ => mk_st (st_out s ++ [KNamed name v])
                      (list_set (st_args s) i (GNamedArg name v)) (st_params s)
    | [] => mk_st (st_out s ++ [KNamed name v]) (st_args s ++ [GNamedArg name v])
                  (mset name [length (st_args s)] (st_params s))
    end
  | CParam name v =>                                             (* param.go:51-76 *)
    let indices := pget name (st_params s) in
    if numbered d then
      match indices with
      | i :: _ => mk_st (st_out s ++ [KOrd i v]) (list_set (st_args s) i v) (st_params s)
      | [] => push d s v (mset name (indices ++ [length (st_args s)]) (st_params s))
      end
    else push d s v (mset name (indices ++ [length (st_args s)]) (st_params s))
  | CDel names => mk_st (st_out s) (st_args s) (fold_left (fun m n => mdel n m) names (st_params s))
  end.
Definition exec (d : dialect) (s : st) (cs : list cmd) : st := fold_left (exec1 d) cs s.

(** The bytes of the buffer: fmt.go:139-145, 163-188; param.go:55,59,64,68,73. *)
Definition chunk_text (d : dialect) (k : chunk) : bytes :=
  match k with
  | KText b => b
  | KOrd i _ => (if is_sqlserver d then B "@p" else B "$") ++ itoa (i + 1)
  | KMark _ => B "?"
  | KNamed name _ => (if is_sqlserver d then B "@" else if is_sqlite d then B "$" else B ":") ++ name
  end.
Definition out_text (d : dialect) (ks : list chunk) : bytes := flat_map (chunk_text d) ks.
