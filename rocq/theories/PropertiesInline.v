(** * Properties of inlined SQL: C81 *)
From Verif Require Import GoBase GoBaseFacts QuoteModel SprintModel SpecSprintf TokenModel EffectModel RenderModel BuildModel NodeInd SpecNames
  InlineModel SpecInline InlinePf PropertiesBind.

(** C81: what the ddl package makes of an expression, of the query of a view or of
    a field is the rendered text with every value written, as a literal, at the
    place where it stood; and if some value has no literal there is no text. *)
Theorem inlined_at_their_places : forall (d : dialect) (val : bytes -> gval) (n : node) (x : list bytes)
    (segs : list seg) (t : bytes),
  d = DMySQL \/ (d = DPostgres \/ d = DSQLite \/ d = DSQLServer) /\ well_named val n ->
  let '(s, verdict) := append_sql d n None x st0 in
  one_value_per_name (st_args s) ->
  laid_out d (st_out s) segs -> starts_with_text segs = true -> wf_segs d segs = true ->
  (inline d n x = Ok t <-> verdict = SOk /\ with_values d (st_out s) = Some t).
Proof.
  intros d val n x segs t D. pose proof (own_rendered d val n x D) as OV. unfold inline.
  destruct (append_sql d n None x st0) as [s verdict]. cbn [fst snd] in *. intros O L T W.
  pose proof (interpolated_pf d (st_args s) (st_out s) segs t OV O L T W) as P.
  destruct verdict; [|split; [discriminate|intros [H _]; discriminate]..].
  split.
  - intros H. split; auto. apply P. destruct (st_args s); exact H.
  - intros [_ H]. apply P in H. destruct (st_args s); exact H.
Qed.
Print Assumptions inlined_at_their_places.

(** An expression of a DDL method (format and values, no table name before the
    columns of the excluded tables): the text is that of the predicate with this
    format and these values. *)
Theorem expression_inlined : forall (d : dialect) (val : bytes -> gval) (format : bytes) (values : list node)
    (excluded : list bytes) (segs : list seg) (t : bytes),
  d = DMySQL \/ (d = DPostgres \/ d = DSQLite \/ d = DSQLServer) /\ well_named val (p_format format values) ->
  let '(s, verdict) := append_sql d (p_format format values) None excluded st0 in
  one_value_per_name (st_args s) ->
  laid_out d (st_out s) segs -> starts_with_text segs = true -> wf_segs d segs = true ->
  (ddl_sprintf d format values excluded = Ok t <-> verdict = SOk /\ with_values d (st_out s) = Some t).
Proof. intros d val format values excluded segs t. exact (inlined_at_their_places d val (p_format format values) excluded segs t). Qed.
Print Assumptions expression_inlined.

(** The query of a view: its text is that of the query as ToSQL renders it, all
    tables named. *)
Theorem view_query_inlined : forall (d : dialect) (val : bytes -> gval) (q : node) (segs : list seg) (t : bytes),
  d = DMySQL \/ (d = DPostgres \/ d = DSQLite \/ d = DSQLServer) /\ well_named val q ->
  let '(s, verdict) := append_sql d q None [] st0 in
  one_value_per_name (st_args s) ->
  laid_out d (st_out s) segs -> starts_with_text segs = true -> wf_segs d segs = true ->
  (view_text d q = Ok t <-> verdict = SOk /\ with_values d (st_out s) = Some t).
Proof. intros d val q segs t. exact (inlined_at_their_places d val q [] segs t). Qed.
Print Assumptions view_query_inlined.

(** The same of a statement: Sprintf of what ToSQL returns (the text in the log). *)
Theorem logged_values_at_their_places : forall (dname : bytes) (val : bytes -> gval) (n : node) (segs : list seg) (t : bytes),
  let d := to_sql_dialect dname n in
  let r := to_sql dname n in
  let places := st_out (fst (append_sql d n None [] st0)) in
  d = DMySQL \/ (d = DPostgres \/ d = DSQLite \/ d = DSQLServer) /\ well_named val n ->
  one_value_per_name (r_args r) ->
  laid_out d places segs -> starts_with_text segs = true -> wf_segs d segs = true ->
  (sprintf d (r_query r) (r_args r) = Ok t <-> with_values d places = Some t).
Proof.
  intros dname val n segs t d r places D O L T W. pose proof (own_rendered d val n [] D) as OV. cbv zeta in OV.
  unfold r, to_sql in *. cbn [r_args r_query] in *. fold d in O. fold d. fold places in OV. fold places.
  rewrite <- (interpolated_pf d _ places segs t OV O L T W).
  destruct (st_args (fst (append_sql d n None [] st0))); [|reflexivity].
  reflexivity.
Qed.
Print Assumptions logged_values_at_their_places.

(** t.Check("{} BETWEEN {} AND {}", PRODUCT.PRICE, 5, 10) on the table product. *)
Definition price : node := NField false false (mk_finfo [] (B "product") [] (B "price") [] [] [] None None false) [].
Definition between_check : node := NPred [] (B "{} BETWEEN {} AND {}") [price; NRaw (GInt 5); NRaw (GString (B "it's"))] false.
Definition between_segs : list seg := [Text (map R (B "price BETWEEN ")); Ordinal 0; Text (map R (B " AND ")); Ordinal 1].
(** The first [m] places are texts and spell the first [k] segments; the next place is a placeholder. *)
Ltac laid m k :=
  match goal with |- laid_out ?d ?p ?s =>
    let p' := eval cbv in p in let s' := eval cbv in s in
    let a := eval cbv in (firstn m p') in let b := eval cbv in (skipn m p') in
    let u := eval cbv in (firstn k s') in let w := eval cbv in (skipn k s') in
    change (laid_out d (a ++ b) (u ++ w)); apply lo_text; [reflexivity|reflexivity|vm_compute; reflexivity|] end.
Ltac place := apply lo_placeholder; [cbn; auto|].
Example inlined_ex :
  well_named (fun _ => GNil) between_check /\
  let '(s, verdict) := append_sql DPostgres between_check None [B "product"] st0 in
  one_value_per_name (st_args s) /\ laid_out DPostgres (st_out s) between_segs /\
  starts_with_text between_segs = true /\ wf_segs DPostgres between_segs = true /\
  verdict = SOk /\ with_values DPostgres (st_out s) = Some (B "price BETWEEN 5 AND 'it''s'") /\
  ddl_sprintf DPostgres (B "{} BETWEEN {} AND {}") [price; NRaw (GInt 5); NRaw (GString (B "it's"))] [B "product"]
    = Ok (B "price BETWEEN 5 AND 'it''s'").
Proof.
  split.
  { unfold well_named, well_named_here. cbn -[B format_items]. named_ok. }
  set (r := append_sql _ _ _ _ _). vm_compute in r. subst r. cbv beta iota.
  split; [intros name v w I; cbn in I; repeat destruct I as [I|I]; try discriminate; contradiction|].
  split; [|repeat split; vm_compute; reflexivity].
  laid 3 1. place. laid 1 1. place. laid 1 0. apply lo_end.
Qed.

(** C81: the columns of an index, in the order of the fields: a column by its
    name, a literal as it is, any other field as its inlined expression (in
    brackets); one bad field and there are none. *)
Inductive index_column (d : dialect) (table_name : bytes) (wrapped : bool) : option node -> bytes * bytes -> Prop :=
| ic_literal text alias : index_column d table_name wrapped (Some (NLiteral text alias)) ([], text)
| ic_named f : (forall text alias, f <> NLiteral text alias) -> get_name f <> [] ->
    index_column d table_name wrapped (Some f) (get_name f, [])
| ic_expr f e : (forall text alias, f <> NLiteral text alias) -> get_name f = [] ->
    inline d f [table_name] = Ok e ->
    index_column d table_name wrapped (Some f) ([], if wrapped then B "(" ++ e ++ B ")" else e).
Theorem index_columns_in_order : forall (d : dialect) (table_name : bytes) (fields : list (option node)) (dont_wrap : bool)
    (l : list (bytes * bytes)),
  names_and_exprs d table_name fields dont_wrap = Ok l <->
  Forall2 (index_column d table_name (negb dont_wrap)) fields l.
Proof.
  intros d tb fields w. induction fields as [|f fields IH]; intros l; cbn [names_and_exprs].
  { split; [intros H; injection H as <-; constructor|intros H; inversion H; reflexivity]. }
  destruct f as [f|]; [|split; [discriminate|intros H; inversion H as [|? ? ? ? C]; subst; inversion C]].
  set (this := match f with NLiteral text _ => _ | _ => _ end).
  assert (This : forall p, this = Ok p <-> index_column d tb (negb w) (Some f) p).
  { intros p. destruct (match f with NLiteral _ _ => true | _ => false end) eqn:Li.
    - destruct f; try discriminate. unfold this. split; intros H.
      + injection H as <-. constructor.
      + inversion H as [text' alias'|f' NL' G'|f' e NL' G' I]; subst; auto; now destruct (NL' text alias).
    - assert (NL : forall t a, f <> NLiteral t a) by (intros t a ->; discriminate).
      assert (T : this = if is_empty (get_name f) then
          match inline d f [tb] with Ok e => Ok ([], if w then e else B "(" ++ e ++ B ")") | Err e => Err e | Panic => Panic end
          else Ok (get_name f, [])) by (unfold this; destruct f; try discriminate; reflexivity).
      rewrite T. clear T this Li. destruct (get_name f) as [|a m] eqn:G; cbn [is_empty]; split; intros H.
      + destruct (inline d f [tb]) as [e| |] eqn:I; try discriminate.
        assert (p = ([], if w then e else B "(" ++ e ++ B ")")) as -> by congruence. clear H.
        replace (if w then e else B "(" ++ e ++ B ")") with (if negb w then B "(" ++ e ++ B ")" else e) by now destruct w.
        now constructor.
      + inversion H as [text alias|f' NL' G'|f' e NL' G' I]; subst; [now destruct (NL text alias)|congruence|].
        rewrite I. now destruct w.
      + injection H as <-. rewrite <- G. constructor; congruence.
      + inversion H as [text alias|f' NL' G'|f' e NL' G' I]; subst; [now destruct (NL text alias)|now rewrite G|congruence]. }
  clearbody this. destruct this as [p| |]; split; intros H; try discriminate.
  - destruct (names_and_exprs d tb fields w) as [l'| |]; try discriminate. injection H as <-.
    constructor; [now apply This|now apply IH].
  - inversion H as [|? ? ? ? C F]; subst. apply This in C. injection C as ->. apply IH in F. now rewrite F.
  - inversion H as [|? ? ? ? C F]; subst. apply This in C. discriminate.
  - inversion H as [|? ? ? ? C F]; subst. apply This in C. discriminate.
Qed.
Print Assumptions index_columns_in_order.
Example index_columns_ex :
  names_and_exprs DPostgres (B "product")
    [Some price; Some (NLiteral (B "name DESC") []); Some (NField false false (mk_finfo [] [] [] [] [] [(B "default", B "lower({}) || {}")] [] None None false) [price; NRaw (GString (B "x"))])]
    false
  = Ok [(B "price", []); ([], B "name DESC"); ([], B "(lower(price) || 'x')")].
Proof. vm_compute. reflexivity. Qed.

(** Finding: a value at the very beginning of an expression stays a placeholder
    (its first character is copied without being looked at, C05): the CHECK
    constraint of t.Check("{} < {}", 5, PRODUCT.PRICE) would read $1 < price. *)
Theorem leading_value_stays_placeholder_refuted :
  ddl_sprintf DPostgres (B "{} < {}") [NRaw (GInt 5); price] [B "product"] = Ok (B "$1 < price").
Proof. vm_compute. reflexivity. Qed.
Print Assumptions leading_value_stays_placeholder_refuted.

(** Finding: an expression that begins with a quoted name and holds a value is
    rejected: t.Check("{} > {}", PRODUCT.Price, 5), where the column is called Price. *)
Definition Price : node := NField false false (mk_finfo [] (B "product") [] (B "Price") [] [] [] None None false) [].
Theorem leading_quoted_column_rejected_refuted :
  to_sql (B "postgres") (NPred [] (B "{} > {}") [Price; NRaw (GInt 5)] false)
    = mk_result (B "product.""Price"" > $1") [GInt 5] [] SOk /\
  ddl_sprintf DPostgres (B "{} > {}") [Price; NRaw (GInt 5)] [B "product"] = Err (B "unclosed string or identifier").
Proof. split; vm_compute; reflexivity. Qed.
Print Assumptions leading_quoted_column_rejected_refuted.
