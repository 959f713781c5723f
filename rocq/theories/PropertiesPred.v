(** * Column references and predicates: C16, C17, C18 *)
From Verif Require Import GoBase QuoteModel SprintModel TokenModel EffectModel RenderModel BuildModel
  SpecBool SpecText BoolModel RenderRel FieldFacts BoolFacts PredPf.
Local Open Scope m_scope.

(** ** C16 *)
(** A column reference: the qualifier is the alias of its table, or the table's
    name if it has no alias, or nothing.  [ascending] (FieldFacts) is the order
    of Go strings, which sort.SearchStrings requires. *)
Theorem qualifier_dropped_iff_excluded : forall (d : dialect) (keepenv : bool) (fi : finfo) (vals : list node)
    (top : option bool) (name : bytes) (e : option env) (x : list bytes),
  fi_err fi = false -> fi_formats fi = [] -> ascending x ->
  let q := if is_empty (fi_talias fi) then fi_table fi else fi_talias fi in
  let suffix :=
    (if is_empty (fi_collation fi) then []
     else B " COLLATE " ++ (if is_postgres d then B """" ++ escape_quote (fi_collation fi) """" ++ B """"
                             else quote_identifier d (fi_collation fi))) ++
    match fi_desc fi with Some true => B " DESC" | Some false => B " ASC" | None => [] end ++
    match fi_nulls fi with Some true => B " NULLS FIRST" | Some false => B " NULLS LAST" | None => [] end in
  let text := text_of (render d (NField keepenv false fi vals) (mk_ctx top name e x)) in
  (q = [] \/ In q x -> text = Some (quote_identifier d (fi_name fi) ++ suffix)) /\
  (q <> [] /\ ~ In q x ->
     text = Some (quote_identifier d q ++ B "." ++ quote_identifier d (fi_name fi) ++ suffix)).
Proof. exact qualifier_dropped_pf. Qed.
Print Assumptions qualifier_dropped_iff_excluded.
Example qualifier_example :
  let fi := mk_finfo [] (B "users") (B "u") (B "name") [] [] [] (Some true) None false in
  ascending [B "t"; B "u"] /\
  text_of (render DSQLite (NField true false fi []) (ctx None [B "t"; B "u"])) = Some (B "name DESC") /\
  text_of (render DSQLite (NField true false fi []) (ctx None [B "t"])) = Some (B "u.name DESC").
Proof.
  split; [|split; reflexivity].
  intros i j Hij Hj. cbn in Hj. destruct j as [|[|j]]; [| |exfalso; Lia.lia];
    destruct i as [|[|i]]; try reflexivity; exfalso; Lia.lia.
Qed.
(** The hypothesis that the list is ascending is needed: a qualifier that is in
    the list is kept if the list is not sorted. *)
Theorem qualifier_unsorted_refuted :
  let fi := mk_finfo [] (B "b") [] (B "id") [] [] [] None None false in
  In (B "b") [B "b"; B "a"] /\
  text_of (render DSQLite (NField true false fi []) (ctx None [B "b"; B "a"])) = Some (B "b.id").
Proof. split; [now left|reflexivity]. Qed.
Print Assumptions qualifier_unsorted_refuted.

(** ** C17 *)
Theorem double_negation : forall p q : node,
  p_not p = Some q ->
  exists r, p_not q = Some r /\ forall d c, render d r c = render d p c.
Proof. exact double_negation_pf. Qed.
Print Assumptions double_negation.
(** Once negated, a predicate is preceded by NOT (unless it is an empty list,
    which renders to nothing either way). *)
Theorem negation_writes_not : forall p q : node,
  p_not p = Some q ->
  match p with
  | NPred _ _ _ neg | NField _ neg _ _ => neg = false
  | NVPred l => vp_neg l = false /\ vp_preds l <> []
  | _ => False
  end ->
  forall d c, render d q c = emit (B "NOT ") ;; render d p c.
Proof. exact negation_writes_not_pf. Qed.
Print Assumptions negation_writes_not.
Example double_negation_example :
  let p := p_and [p_eq (NRaw (GInt 1)) (NRaw (GInt 2)); p_is_null (NRaw (GInt 3))] in
  exists q r, p_not p = Some q /\ p_not q = Some r /\
    r_query (to_sql (B "postgres") q) = B "NOT ($1 = $2 AND $3 IS NULL)" /\
    r_query (to_sql (B "postgres") r) = B "($1 = $2 AND $3 IS NULL)".
Proof. do 2 eexists. repeat split; reflexivity. Qed.

(** ** C18 *)
(** A condition built with And, Or and Not from atoms, used as an operand: the
    SQL is a token sequence that reads, with the standard precedences, as an
    expression with the meaning of the condition. *)
Theorem operand_keeps_meaning : forall (d : dialect) (atom : nat -> node) (x : list bytes) (c : cond),
  (forall i, is_atom (atom i) = true) -> supported c = true ->
  exists n ts b,
    build atom c = Some n /\
    render d n (ctx None x) = toks_sql d atom x ts /\
    reads_as ts b /\ forall v, beval v b = meaning v c.
Proof. exact operand_keeps_meaning_pf. Qed.
Print Assumptions operand_keeps_meaning.
(** The same for the conditions cs given to Where, On or Having: they are
    and-ed together and the clause is written without outer parentheses. *)
Theorem clause_keeps_meaning : forall (d : dialect) (atom : nat -> node) (x : list bytes) (cs : list cond)
    (alias name : bytes) (top : bool),
  (forall i, is_atom (atom i) = true) -> supported (CAnd cs) = true ->
  exists ns ts b,
    Forall2 (fun c n => build atom c = Some n) cs ns /\
    render d (NVPred (mk_vpred top alias false ns false)) (mk_ctx (Some true) name None x) = toks_sql d atom x ts /\
    reads_as ts b /\ forall v, beval v b = meaning v (CAnd cs).
Proof. exact clause_keeps_meaning_pf. Qed.
Print Assumptions clause_keeps_meaning.
Theorem reading_is_unique : forall ts a b, reads_as ts a -> reads_as ts b -> a = b.
Proof. exact reads_as_unique. Qed.
Print Assumptions reading_is_unique.

Definition atom_nm (i : nat) : node := p_format (nth i [B "a"; B "b"; B "c"] (B "z")) [].
Example operand_example :
  let c := CAnd [CAtom 0; CNot (COr [CAtom 1; CNot (CAtom 2)]); COr [CAtom 0]] in
  (forall i, is_atom (atom_nm i) = true) /\ supported c = true /\
  exists n, build atom_nm c = Some n /\ r_query (to_sql (B "mysql") n) = B "(a AND NOT (b OR NOT c) AND a)".
Proof. repeat split. eexists. split; reflexivity. Qed.
Example clause_example :
  supported (CAnd [COr [CAtom 0; CAtom 1]]) = true /\ supported (CAnd [CAtom 0; CNot (CAnd [CAtom 1; CAtom 2])]) = true.
Proof. repeat split. Qed.

(** Outside [supported] the claim is false.
    A clause consisting of one negated list: Where(Not(And(a, b))) renders as
    "NOT a AND b", which is (NOT a) AND b. *)
Theorem clause_negated_list_refuted :
  exists n ts b v,
    build atom_nm (CNot (CAnd [CAtom 0; CAtom 1])) = Some n /\
    render DMySQL (NVPred (mk_vpred false [] false [n] false)) (mk_ctx (Some true) [] None [])
      = toks_sql DMySQL atom_nm [] ts /\
    out_text DMySQL (st_out (exec DMySQL st0 (fst (toks_sql DMySQL atom_nm [] ts)))) = B "NOT a AND b" /\
    reads_as ts b /\
    beval v b = FF /\ meaning v (CAnd [CNot (CAnd [CAtom 0; CAtom 1])]) = TT.
Proof.
  exists (NVPred (mk_vpred false [] false [atom_nm 0; atom_nm 1] true)), [KNot; KAtom 0; KAnd; KAtom 1],
    (BAnd (BNot (BAtom 0)) (BAtom 1)), (fun i => match i with 0 => TT | _ => FF end).
  repeat split. now exists 10.
Qed.
Print Assumptions clause_negated_list_refuted.
(** The same inside a one-element list anywhere: And(Not(And(a, b))). *)
Theorem singleton_negated_list_refuted :
  exists n ts b v,
    build atom_nm (CAnd [CNot (CAnd [CAtom 0; CAtom 1])]) = Some n /\
    render DMySQL n (ctx None []) = toks_sql DMySQL atom_nm [] ts /\
    out_text DMySQL (st_out (exec DMySQL st0 (fst (toks_sql DMySQL atom_nm [] ts)))) = B "(NOT a AND b)" /\
    reads_as ts b /\
    beval v b = FF /\ meaning v (CAnd [CNot (CAnd [CAtom 0; CAtom 1])]) = TT.
Proof.
  exists (NVPred (mk_vpred false [] false [NVPred (mk_vpred false [] false [atom_nm 0; atom_nm 1] true)] false)),
    [KLp; KNot; KAtom 0; KAnd; KAtom 1; KRp],
    (BAnd (BNot (BAtom 0)) (BAtom 1)), (fun i => match i with 0 => TT | _ => FF end).
  repeat split. now exists 10.
Qed.
Print Assumptions singleton_negated_list_refuted.
(** An empty list among the operands leaves a dangling operator, which no
    reading accepts: And(a, Or()) renders as "(a AND )". *)
Theorem empty_operand_refuted :
  exists n ts,
    build atom_nm (CAnd [CAtom 0; COr []]) = Some n /\
    render DMySQL n (ctx None []) = toks_sql DMySQL atom_nm [] ts /\
    out_text DMySQL (st_out (exec DMySQL st0 (fst (toks_sql DMySQL atom_nm [] ts)))) = B "(a AND )" /\
    forall b, ~ reads_as ts b.
Proof.
  exists (NVPred (mk_vpred false [] false [atom_nm 0; NVPred (mk_vpred false [] true [] false)] false)),
    [KLp; KAtom 0; KAnd; KRp].
  repeat split. exact empty_operand_unreadable.
Qed.
Print Assumptions empty_operand_refuted.
(** Atoms are opaque: a CustomPredicate whose text is itself a disjunction is
    not parenthesised when negated. *)
Theorem negated_custom_predicate_refuted :
  exists n, p_not (p_format (B "a OR b") []) = Some n /\ r_query (to_sql (B "mysql") n) = B "NOT a OR b".
Proof. eexists. split; reflexivity. Qed.
Print Assumptions negated_custom_predicate_refuted.
