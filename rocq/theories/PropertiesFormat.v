(** * Format strings: C08, C09.  See SpecFormat for what a format means. *)
From Verif Require Import GoBase QuoteModel SprintModel TokenModel EffectModel RenderModel
  SpecFormat BuildModel RenderRel RenderInst FormatFacts.
Local Open Scope m_scope.

(** Printing the i-th value under the name it is referred to by. *)
Definition print_value (d : dialect) (vals : list node) (e : option env) (x : list bytes)
    (i : nat) (name : bytes) : M :=
  match nth_error vals i with
  | Some v => render d v (mk_ctx None name e x)
  | None => crash
  end.

Lemma kid_print_eq d vals e x : forall i name,
  kid_print (map (mk d) vals) e x i name = print_value d vals e x i name.
Proof.
  intros i name. unfold kid_print, print_value. rewrite nth_error_map.
  now destruct (nth_error vals i).
Qed.
Lemma expand_ext p q vals : (forall i name, p i name = q i name) -> forall hs fin next ords,
  expand p vals next ords hs fin = expand q vals next ords hs fin.
Proof.
  intros H hs fin. induction hs as [|[t h] hs IH]; intros next ords; cbn [expand]; auto.
  f_equal. destruct h.
  - now rewrite IH.
  - now rewrite H, IH.
  - now rewrite H, IH.
  - destruct (last_named name vals); auto. now rewrite H, IH.
  - assert (G : forall i name, match bare_name vals i with Some n => emit n | None => p i name end = match bare_name vals i with Some n => emit n | None => q i name end)
      by (intros i name; destruct (bare_name vals i); [reflexivity|apply H]).
    destruct h as [| |n|name|h]; try reflexivity.
    + now rewrite G, IH.
    + now rewrite G, IH.
    + destruct (last_named name vals); [|reflexivity]. now rewrite G, IH.
Qed.
Lemma printf_expand d vals e x hs fin : good_holes hs fin ->
  bufprintf (map (mk d) vals) e x (format_text hs fin) = expand (print_value d vals e x) vals 0 [] hs fin.
Proof.
  intros H. rewrite bufprintf_expand by auto. rewrite map_map. cbn [mk k_node]. rewrite map_id.
  apply expand_ext. apply kid_print_eq.
Qed.

Lemma ret_seq m : ret ;; m = m.
Proof. now destruct m. Qed.
Lemma seq_ret m : m ;; ret = m.
Proof. unfold seq. destruct m as [cs []]; cbn; auto. now rewrite app_nil_r. Qed.

(** C08: Predicatef, Tablef, Queryf and Fieldf expand their format as specified. *)
Theorem predicatef_expands : forall (d : dialect) (hs : list (bytes * hole)) (fin : bytes) (vals : list node)
    (e : option env) (x : list bytes),
  good_holes hs fin ->
  render d (p_format (format_text hs fin) vals) (ctx e x) = expand (print_value d vals e x) vals 0 [] hs fin.
Proof.
  intros d hs fin vals e x H. rewrite <- (printf_expand d vals e x hs fin H).
  exact (ret_seq (bufprintf (map (mk d) vals) e x (format_text hs fin))).
Qed.
Print Assumptions predicatef_expands.
Theorem tablef_queryf_expand : forall (d : dialect) (hs : list (bytes * hole)) (fin : bytes) (vals : list node)
    (e : option env) (x : list bytes) (dname : bytes),
  good_holes hs fin ->
  render d (NTablef (format_text hs fin) vals) (ctx e x) = expand (print_value d vals e []) vals 0 [] hs fin /\
  render d (NQueryf dname (format_text hs fin) vals) (ctx e x) = expand (print_value d vals e []) vals 0 [] hs fin.
Proof. intros. split; exact (printf_expand d vals e [] hs fin H). Qed.
Print Assumptions tablef_queryf_expand.
Theorem fieldf_expands : forall (d : dialect) (hs : list (bytes * hole)) (fin : bytes) (vals : list node)
    (e : option env) (x : list bytes) (alias : bytes),
  good_holes hs fin ->
  render d (NField false false (mk_finfo [] [] [] [] alias [(B "default", format_text hs fin)] [] None None false) vals)
    (ctx e x) = expand (print_value d vals None x) vals 0 [] hs fin.
Proof.
  intros d hs fin vals e x alias H. rewrite <- (printf_expand d vals None x hs fin H).
  assert (G : forall f, render d (NField false false (mk_finfo [] [] [] [] alias [(B "default", f)] [] None None false) vals)
    (ctx e x) = (bufprintf (map (mk d) vals) None x f ;; ret ;; ret ;; ret)).
  { intros f. cbn [render]. unfold field_run. cbn [fi_err fi_formats fi_collation fi_desc fi_nulls].
    unfold pick_formats. replace (beqb (B "default") (B "default")) with true by reflexivity.
    exact (ret_seq _). }
  rewrite G. now rewrite !seq_ret.
Qed.
Print Assumptions fieldf_expands.
(** A text without '{' is written verbatim, whatever the values are. *)
Theorem plain_format_verbatim : forall (d : dialect) (t : bytes) (vals : list node) (e : option env) (x : list bytes),
  ~ In "{"%char t -> render d (p_format t vals) (ctx e x) = ([CDel []; CText t], SOk).
Proof.
  intros d t vals e x H. apply (predicatef_expands d [] t vals e x). split; [constructor|exact H].
Qed.
Print Assumptions plain_format_verbatim.
Example predicatef_expands_ex :
  good_holes [(B "a = ", HNext); (B " AND ", HBrace); (B "} = ", HOrd 2); (B " OR ", HName (B "nm")); (B " ", HBare (HOrd 1))] (B " x") /\
  format_text [(B "a = ", HNext); (B " AND ", HBrace); (B "} = ", HOrd 2); (B " OR ", HName (B "nm"))] (B " x")
    = B "a = {} AND {{} = {2} OR {nm} x" /\
  r_query (to_sql (B "postgres") (p_format (B "a = {} AND {{} = {2} OR {nm} x")
    [NRaw (GInt 1); NRaw (GInt 2); NParam (B "nm") (NRaw (GInt 3))])) = B "a = $1 AND {} = $2 OR $3 x".
Proof.
  split; [|split; vm_compute; reflexivity].
  split; [|intros J; cbn in J; intuition discriminate].
  repeat (apply Forall_cons; [split; [intros J; cbn in J; intuition discriminate|]|]); try apply Forall_nil;
    try exact I; cbn.
  - unfold max_int64. discriminate.
  - repeat split; try (intros J; cbn in J; intuition discriminate); discriminate.
  - unfold max_int64. discriminate.
Qed.

(** ':nameonly' writes the column's or the table's name and nothing else: no
    qualifier and no quotes.  Other values are printed as without it. *)
Theorem nameonly_is_the_name : forall (d : dialect) (t fin : bytes) (v : node) (e : option env) (x : list bytes),
  ~ In "{"%char t -> ~ In "{"%char fin -> is_field_or_table v = true ->
  render d (p_format (t ++ B "{:nameonly}" ++ fin) [v]) (ctx e x) =
    ([CText t; CText (get_name v); CDel []; CText fin], SOk).
Proof.
  intros d t fin v e x Ht Hf K. pose proof (predicatef_expands d [(t, HBare HNext)] fin [v] e x) as E.
  unfold format_text in E. cbn [flat_map fst snd hole_text reference] in E. rewrite app_nil_r, <- app_assoc in E.
  etransitivity; [apply E; split; [constructor; [split; [exact Ht|exact I]|constructor]|exact Hf]|].
  cbn [expand length Nat.ltb Nat.leb]. unfold bare_name. cbn [nth_error]. rewrite K. reflexivity.
Qed.
Print Assumptions nameonly_is_the_name.
(** Finding: so a name that must be quoted is not. *)
Theorem nameonly_unquoted_refuted :
  ~ (forall d v, is_field_or_table v = true ->
       r_query (to_sql d (p_format (B "{:nameonly}") [v])) = quote_identifier (dialect_of d) (get_name v)).
Proof.
  intros H. specialize (H (B "postgres") (NField false false (mk_finfo [] [] [] (B "a b") [] [] [] None None false) []) eq_refl).
  vm_compute in H. discriminate H.
Qed.
Print Assumptions nameonly_unquoted_refuted.

(** C09: a hole without a value makes the rendering fail, wherever it is. *)
Theorem missing_value_is_error : forall (d : dialect) (h1 : list (bytes * hole)) (t : bytes) (h : hole)
    (h2 : list (bytes * hole)) (fin : bytes) (vals : list node) (e : option env) (x : list bytes) (s : st),
  good_holes (h1 ++ (t, h) :: h2) fin ->
  no_value vals (nexts h1) h ->
  snd (append_sql d (p_format (format_text (h1 ++ (t, h) :: h2) fin) vals) e x s) <> SOk.
Proof.
  intros d h1 t h h2 fin vals e x s G N. unfold append_sql. cbn [snd].
  rewrite predicatef_expands by auto. now apply expand_missing.
Qed.
Print Assumptions missing_value_is_error.
Example missing_value_is_error_ex :
  no_value [NRaw (GInt 1)] (nexts [(B "a = ", HNext)]) HNext /\
  no_value [NRaw (GInt 1)] 0 (HOrd 2) /\ no_value [NRaw (GInt 1)] 0 (HName (B "nm")).
Proof. repeat split; cbn; auto. intros v [<-|[]]. discriminate. Qed.
