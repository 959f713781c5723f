(** * Comparisons, modifiers, functions, windows, assignments: C64-C67.
    See SpecField for what is meant. *)
From Coq Require Import Lia Permutation.
From Verif Require Import GoBase GoBaseFacts QuoteModel QuoteFacts SprintModel TokenModel EffectModel RenderModel
  SpecFormat BuildModel RenderRel RenderInst FormatFacts PropertiesFormat FieldModel SpecField FieldPf.
Local Open Scope m_scope.

(** The holes of a format, filled. *)
Lemma by_format d ts fin vals e x f ps :
  f = format_text (blanks ts) fin -> length ts = length vals -> forallb clean (fin :: ts) = true ->
  tidy (fill e x ts vals ++ [T fin]) = tidy ps -> writes d (p_format f vals) e x ps.
Proof.
  intros F L C H. apply writes_same.
  cbn [forallb] in C. apply andb_true_iff in C. destruct C as [C1 C2].
  eapply same_trans; [exact (p_format_writes d ts fin vals e x f F L (clean_goods _ C2) (clean_good _ C1))|].
  now apply tidy_eq.
Qed.
Lemma by_fieldf d ts fin vals e x f ps :
  f = format_text (blanks ts) fin -> length ts = length vals -> forallb clean (fin :: ts) = true ->
  tidy (fill None x ts vals ++ [T fin]) = tidy ps -> writes d (fieldf f vals) e x ps.
Proof.
  intros F L C H. apply writes_same.
  cbn [forallb] in C. apply andb_true_iff in C. destruct C as [C1 C2].
  eapply same_trans; [exact (fieldf_writes d ts fin vals e x f F L (clean_goods _ C2) (clean_good _ C1))|].
  now apply tidy_eq.
Qed.

(** ** C64: comparisons *)

(** Eq, Ne, Gt, Ge, Lt, Le write the left value, the operator and the right
    value; queries are bracketed. *)
Theorem compare_written : forall (d : dialect) (a b : node) (e : option env) (x : list bytes),
  Forall (fun c => writes d (fst c a b) e x (operand e x a ++ [T (B " " ++ snd c ++ B " ")] ++ operand e x b))
    [(p_eq, B "="); (p_ne, B "<>"); (p_gt, B ">"); (p_ge, B ">="); (p_lt, B "<"); (p_le, B "<=")].
Proof.
  intros d a b e x.
  repeat (apply Forall_cons; [unfold p_eq, p_ne, p_gt, p_ge, p_lt, p_le, p_cmp, operand; cbn [fst snd]|]);
    [..|apply Forall_nil];
    destruct (is_query a), (is_query b);
    match goal with
    | |- writes _ (p_format (B "({})" ++ B " " ++ ?o ++ B " " ++ B "({})") _) _ _ _ =>
      eapply (by_format d [B "("; B ") " ++ o ++ B " ("] (B ")"))
    | |- writes _ (p_format (B "({})" ++ B " " ++ ?o ++ B " " ++ B "{}") _) _ _ _ =>
      eapply (by_format d [B "("; B ") " ++ o ++ B " "] [])
    | |- writes _ (p_format (B "{}" ++ B " " ++ ?o ++ B " " ++ B "({})") _) _ _ _ =>
      eapply (by_format d [[]; B " " ++ o ++ B " ("] (B ")"))
    | |- writes _ (p_format (B "{}" ++ B " " ++ ?o ++ B " " ++ B "{}") _) _ _ _ =>
      eapply (by_format d [[]; B " " ++ o ++ B " "] [])
    end; reflexivity.
Qed.
Print Assumptions compare_written.

(** IsNull, IsNotNull, Exists, NotExists, LikeString, ILikeString. *)
Theorem tests_written : forall (d : dialect) (f q : node) (v : bytes) (e : option env) (x : list bytes),
  writes d (p_is_null f) e x [V e x f; T (B " IS NULL")] /\
  writes d (p_is_not_null f) e x [V e x f; T (B " IS NOT NULL")] /\
  writes d (p_exists q) e x [T (B "EXISTS ("); V e x q; T (B ")")] /\
  writes d (p_not_exists q) e x [T (B "NOT EXISTS ("); V e x q; T (B ")")] /\
  writes d (like_string f v) e x [V e x f; T (B " LIKE "); V e x (NRaw (GString v))] /\
  writes d (ilike_string f v) e x [V e x f; T (B " ILIKE "); V e x (NRaw (GString v))].
Proof.
  intros d f q v e x.
  split; [|split; [|split; [|split; [|split]]]].
  - apply (by_format d [[]] (B " IS NULL")); reflexivity.
  - apply (by_format d [[]] (B " IS NOT NULL")); reflexivity.
  - apply (by_format d [B "EXISTS ("] (B ")")); reflexivity.
  - apply (by_format d [B "NOT EXISTS ("] (B ")")); reflexivity.
  - apply (by_format d [[]; B " LIKE "] []); reflexivity.
  - apply (by_format d [[]; B " ILIKE "] []); reflexivity.
Qed.
Print Assumptions tests_written.

(** A slice prints its elements separated by commas, a row value the same in brackets. *)
Definition element (n : node) : Prop :=
  match n with NRaw (GNamedArg _ _) | NSlice _ => False | _ => True end.
Lemma seqs_run d sep (pss : list (list piece)) :
  seqs (map (seq (emit sep)) (map (run d) pss)) = run d (flat_map (fun ps => T sep :: ps) pss).
Proof.
  induction pss as [|ps pss IH]; [reflexivity|]. cbn [map seqs flat_map]. rewrite IH.
  rewrite run_app. reflexivity.
Qed.
Lemma between_flat sep ps pss : between sep (ps :: pss) = ps ++ flat_map (fun ps => T sep :: ps) pss.
Proof.
  revert ps. induction pss as [|qs pss IH]; intros ps.
  - cbn [flat_map]. now rewrite app_nil_r.
  - change (between sep (ps :: qs :: pss)) with (ps ++ T sep :: between sep (qs :: pss)).
    rewrite IH. reflexivity.
Qed.
Lemma sep_by_run d sep pss : sep_by sep (map (run d) pss) = run d (between sep pss).
Proof.
  destruct pss as [|ps pss]; [reflexivity|]. cbn [map sep_by]. rewrite seqs_run, between_flat.
  now rewrite run_app.
Qed.
Lemma run_one d e x n : run d [V e x n] = render d n (ctx e x).
Proof. cbn [run]. apply seq_ret. Qed.
Lemma sep_by_values d sep e x vs :
  sep_by sep (map (fun v => render d v (ctx e x)) vs) = run d (between sep (map (fun v => [V e x v]) vs)).
Proof.
  rewrite <- sep_by_run, map_map. f_equal. apply map_ext. intros v. symmetry. apply run_one.
Qed.
Lemma slice_eq d vs e x : Forall element vs ->
  render d (NSlice vs) (ctx e x) = run d (between (B ", ") (map (fun v => [V None x v]) vs)).
Proof.
  intros H. rewrite <- sep_by_values.
  change (render d (NSlice vs) (ctx e x)) with (explode_run (map (mk d) vs) x).
  unfold explode_run. rewrite map_map. f_equal. apply map_ext_in. intros v I.
  rewrite Forall_forall in H. specialize (H v I).
  destruct v as [g|vs'| | | | | | | | | | | | | | | | | | | | | | | | | |]; try reflexivity; [|destruct H].
  destruct g; try reflexivity. destruct H.
Qed.
Lemma row_eq d vs e x :
  render d (NRowValue vs) (ctx e x)
  = run d ([T (B "(")] ++ between (B ", ") (map (fun v => [V e x v]) vs) ++ [T (B ")")]).
Proof.
  rewrite !run_app, <- sep_by_values.
  change (render d (NRowValue vs) (ctx e x)) with (row_run (map (render d) vs) e x).
  unfold row_run. rewrite map_map. cbn [run]. now rewrite !seq_ret.
Qed.

Theorem lists_written : forall (d : dialect) (vs : list node) (e : option env) (x : list bytes),
  (Forall element vs -> writes d (NSlice vs) e x (between (B ", ") (map (fun v => [V None x v]) vs))) /\
  writes d (NRowValue vs) e x ([T (B "(")] ++ between (B ", ") (map (fun v => [V e x v]) vs) ++ [T (B ")")]).
Proof.
  intros d vs e x. split.
  - intros H. apply writes_same. rewrite slice_eq by exact H. apply same_refl.
  - apply writes_same. rewrite row_eq. apply same_refl.
Qed.
Print Assumptions lists_written.

(** In(a, b): the right side is bracketed exactly once. *)
Theorem in_written : forall (d : dialect) (a b : node) (e : option env) (x : list bytes),
  match b with
  | NRowValue vs =>
    writes d (p_in a b) e x
      ([V e x a; T (B " IN (")] ++ between (B ", ") (map (fun v => [V e x v]) vs) ++ [T (B ")")])
  | NSlice vs =>
    Forall element vs ->
    writes d (p_in a b) e x
      ([V e x a; T (B " IN (")] ++ between (B ", ") (map (fun v => [V None x v]) vs) ++ [T (B ")")])
  | _ => writes d (p_in a b) e x [V e x a; T (B " IN ("); V e x b; T (B ")")]
  end.
Proof.
  intros d a b e x.
  assert (K : writes d (p_format (B "{} IN ({})") [a; b]) e x [V e x a; T (B " IN ("); V e x b; T (B ")")]).
  { apply (by_format d [[]; B " IN ("] (B ")")); reflexivity. }
  destruct b; try exact K.
  - intros H. apply writes_same. apply writes_same in K. eapply same_trans; [exact K|].
    rewrite !run_app. cbn [run]. rewrite slice_eq by exact H. rewrite !seq_assoc, !ret_seq. apply same_refl.
  - unfold p_in.
    assert (J : writes d (p_format (B "{} IN {}") [a; NRowValue vs]) e x [V e x a; T (B " IN "); V e x (NRowValue vs)]).
    { apply (by_format d [[]; B " IN "] []); reflexivity. }
    apply writes_same. apply writes_same in J. eapply same_trans; [exact J|].
    change [V e x a; T (B " IN (")] with ([V e x a] ++ [T (B " IN (")]).
    change (run d [V e x a; T (B " IN "); V e x (NRowValue vs)])
      with (render d a (ctx e x) ;; emit (B " IN ") ;; render d (NRowValue vs) (ctx e x) ;; ret).
    rewrite row_eq, !run_app. cbn [run]. rewrite !seq_ret, !seq_assoc.
    apply same_seq; [apply same_refl|]. rewrite <- !seq_assoc.
    apply same_seq; [|apply same_refl]. apply same_seq; [|apply same_refl].
    apply same_sym. exact (same_emit d (B " IN ") (B "(")).
Qed.
Print Assumptions in_written.

Definition col (name : bytes) : node := new_field name [] (B "t") [].
Example compare_example :
  r_query (to_sql (B "postgres") (p_ge (col (B "a")) (NRaw (GInt 3)))) = B "t.a >= $1" /\
  r_query (to_sql (B "postgres") (p_in (col (B "a")) (NSlice [NRaw (GInt 3); NRaw (GInt 4)]))) = B "t.a IN ($1, $2)" /\
  r_query (to_sql (B "mysql") (p_in (NRowValue [col (B "a"); col (B "b")])
    (NRowValue [NRowValue [NRaw (GInt 3); NRaw (GInt 4)]]))) = B "(t.a, t.b) IN ((?, ?))" /\
  r_query (to_sql (B "postgres") (p_eq (col (B "a")) (NQueryf (B "postgres") (B "SELECT 1") []))) = B "t.a = (SELECT 1)" /\
  r_query (to_sql (B "postgres") (like_string (col (B "a")) (B "x%"))) = B "t.a LIKE $1" /\
  Forall element [NRaw (GInt 3); NRaw (GInt 4)].
Proof. split; [|split; [|split; [|split; [|split]]]]; try (vm_compute; reflexivity). repeat constructor. Qed.

(** Where the written text does not mean what the call says: an operand that is
    itself a predicate, a negated boolean field or an ordered field is written
    without brackets; In of an empty slice and In of a query on the left are
    not SQL. *)
Theorem operands_not_bracketed_refuted :
  r_query (to_sql (B "postgres") (p_eq (p_eq (col (B "a")) (col (B "b"))) (col (B "c")))) = B "t.a = t.b = t.c" /\
  r_query (to_sql (B "postgres") (p_eq (col (B "a")) (p_eq (col (B "b")) (col (B "c"))))) = B "t.a = t.b = t.c" /\
  r_query (to_sql (B "postgres") (p_eq (modify (col (B "a")) MDesc) (col (B "b")))) = B "t.a DESC = t.b" /\
  option_map (fun n => r_query (to_sql (B "postgres") (p_is_null n))) (p_not (col (B "a"))) = Some (B "NOT t.a IS NULL") /\
  r_query (to_sql (B "postgres") (p_in (col (B "a")) (NSlice []))) = B "t.a IN ()" /\
  r_query (to_sql (B "postgres") (p_in (NQueryf (B "postgres") (B "SELECT 1") []) (NSlice [NRaw (GInt 1)])))
    = B "SELECT 1 IN ($1)".
Proof. split; [|split; [|split; [|split; [|split]]]]; vm_compute; reflexivity. Qed.
Print Assumptions operands_not_bracketed_refuted.

(** ** C65: As, Asc, Desc, NullsFirst, NullsLast, Collate *)

(** A field to which none of the methods has been applied. *)
Definition unmodified (f : node) : Prop :=
  match f with
  | NField _ _ fi _ => fi_alias fi = [] /\ fi_collation fi = [] /\ fi_desc fi = None /\ fi_nulls fi = None
  | _ => False
  end.
Definition as_alias (m : modifier) : option bytes := match m with MAs a => Some a | _ => None end.
Definition as_collation (m : modifier) : option bytes := match m with MCollate c => Some c | _ => None end.
Definition as_order (m : modifier) : option bytes :=
  match m with MAsc => Some (B " ASC") | MDesc => Some (B " DESC") | _ => None end.
Definition as_nulls (m : modifier) : option bytes :=
  match m with MNullsFirst => Some (B " NULLS FIRST") | MNullsLast => Some (B " NULLS LAST") | _ => None end.
Definition maybe (o : option bytes) : bytes := match o with Some b => b | None => [] end.
(** A collation is an identifier; Postgres collations are always quoted. *)
Definition collation_text (d : dialect) (c : bytes) : bytes :=
  match c with
  | [] => []
  | _ => B " COLLATE " ++ (if is_postgres d then B """" ++ escape_quote c """" ++ B """" else quote_identifier d c)
  end.

Lemma modify_fold ms : forall k neg fi vals,
  fold_left modify ms (NField k neg fi vals)
  = NField k neg (fold_left (fun fi m => modify_info m fi) ms fi) vals.
Proof. induction ms as [|m ms IH]; intros; [reflexivity|]. cbn [fold_left modify]. apply IH. Qed.
Definition order_of (m : modifier) : option bool :=
  match m with MAsc => Some false | MDesc => Some true | _ => None end.
Definition nulls_of (m : modifier) : option bool :=
  match m with MNullsFirst => Some true | MNullsLast => Some false | _ => None end.
Lemma modify_info_fold ms : forall fi,
  let gi := fold_left (fun fi m => modify_info m fi) ms fi in
  (fi_schema gi = fi_schema fi /\ fi_table gi = fi_table fi /\ fi_talias gi = fi_talias fi /\
   fi_name gi = fi_name fi /\ fi_formats gi = fi_formats fi /\ fi_err gi = fi_err fi) /\
  fi_alias gi = match last_of as_alias ms with Some a => a | None => fi_alias fi end /\
  fi_collation gi = match last_of as_collation ms with Some a => a | None => fi_collation fi end /\
  fi_desc gi = match last_of order_of ms with Some a => Some a | None => fi_desc fi end /\
  fi_nulls gi = match last_of nulls_of ms with Some a => Some a | None => fi_nulls fi end.
Proof.
  induction ms as [|m ms IH]; intros fi.
  - cbn. split; [|split; [|split; [|split]]]; try reflexivity. repeat split.
  - cbn [fold_left last_of]. specialize (IH (modify_info m fi)). cbv zeta in IH |- *.
    destruct IH as ((A1 & A2 & A3 & A4 & A5 & A6) & A & C & D & N).
    rewrite A1, A2, A3, A4, A5, A6, A, C, D, N.
    destruct fi as [s t ta n al fs co de nu er].
    split; [destruct m; repeat split|].
    split; [destruct (last_of as_alias ms); [reflexivity|destruct m; reflexivity]|].
    split; [destruct (last_of as_collation ms); [reflexivity|destruct m; reflexivity]|].
    split; [destruct (last_of order_of ms); [reflexivity|destruct m; reflexivity]|].
    destruct (last_of nulls_of ms); [reflexivity|destruct m; reflexivity].
Qed.
Lemma order_texts ms : maybe (last_of as_order ms)
  = match last_of order_of ms with Some true => B " DESC" | Some false => B " ASC" | None => [] end.
Proof.
  induction ms as [|m ms IH]; [reflexivity|]. cbn [last_of].
  destruct (last_of as_order ms) as [b|] eqn:E, (last_of order_of ms) as [o|] eqn:E'.
  - exact IH.
  - exfalso. clear IH. revert b E E'. induction ms as [|m' ms IH]; intros b E E'; [discriminate|].
    cbn [last_of] in E, E'. destruct (last_of order_of ms); [discriminate|].
    destruct (last_of as_order ms) eqn:F; [exact (IH _ eq_refl eq_refl)|].
    destruct m'; discriminate.
  - exfalso. clear IH. revert o E E'. induction ms as [|m' ms IH]; intros o E E'; [discriminate|].
    cbn [last_of] in E, E'. destruct (last_of as_order ms); [discriminate|].
    destruct (last_of order_of ms) eqn:F; [exact (IH _ eq_refl eq_refl)|].
    destruct m'; discriminate.
  - destruct m; reflexivity.
Qed.
Lemma nulls_texts ms : maybe (last_of as_nulls ms)
  = match last_of nulls_of ms with Some true => B " NULLS FIRST" | Some false => B " NULLS LAST" | None => [] end.
Proof.
  induction ms as [|m ms IH]; [reflexivity|]. cbn [last_of].
  destruct (last_of as_nulls ms) as [b|] eqn:E, (last_of nulls_of ms) as [o|] eqn:E'.
  - exact IH.
  - exfalso. clear IH. revert b E E'. induction ms as [|m' ms IH]; intros b E E'; [discriminate|].
    cbn [last_of] in E, E'. destruct (last_of nulls_of ms); [discriminate|].
    destruct (last_of as_nulls ms) eqn:F; [exact (IH _ eq_refl eq_refl)|].
    destruct m'; discriminate.
  - exfalso. clear IH. revert o E E'. induction ms as [|m' ms IH]; intros o E E'; [discriminate|].
    cbn [last_of] in E, E'. destruct (last_of as_nulls ms); [discriminate|].
    destruct (last_of nulls_of ms) eqn:F; [exact (IH _ eq_refl eq_refl)|].
    destruct m'; discriminate.
  - destruct m; reflexivity.
Qed.

(** The rendering of a field is that of its bare form followed by the three suffixes. *)
Definition bare (fi : finfo) (vals : list kid) (d : dialect) (e : option env) (x : list bytes) : M :=
  if fi_err fi then fail
  else match fi_formats fi with
    | _ :: _ =>
      match pick_formats d (fi_formats fi) None None with
      | (_, None) => fail
      | (df, Some def) => bufprintf vals e x (match df with Some f => f | None => def end)
      end
    | [] =>
      let q := shown_qualifier x fi in
      when (negb (is_empty q)) (emit (quote_identifier d q ++ B ".")) ;;
      emit (quote_identifier d (fi_name fi))
    end.
Definition suffix (fi : finfo) (d : dialect) : bytes :=
  collation_text d (fi_collation fi)
  ++ match fi_desc fi with Some true => B " DESC" | Some false => B " ASC" | None => [] end
  ++ match fi_nulls fi with Some true => B " NULLS FIRST" | Some false => B " NULLS LAST" | None => [] end.
Lemma emit_when d (o : option bool) (a b : bytes) :
  same d (match o with Some true => emit a | Some false => emit b | None => ret end)
         (emit (match o with Some true => a | Some false => b | None => [] end)).
Proof. destruct o as [[]|]; try apply same_refl. apply same_sym, same_empty. Qed.
Lemma field_suffix d fi vals e x : same d (field_run d fi vals e x) (bare fi vals d e x ;; emit (suffix fi d)).
Proof.
  assert (S : same d
    (when (negb (is_empty (fi_collation fi)))
        (emit (B " COLLATE ") ;;
         emit (if is_postgres d then B """" ++ escape_quote (fi_collation fi) """" ++ B """"
               else quote_identifier d (fi_collation fi))) ;;
      match fi_desc fi with
      | Some true => emit (B " DESC") | Some false => emit (B " ASC") | None => ret
      end ;;
      match fi_nulls fi with
      | Some true => emit (B " NULLS FIRST") | Some false => emit (B " NULLS LAST") | None => ret
      end) (emit (suffix fi d))).
  { unfold suffix. eapply same_trans; [|apply same_sym, same_emit].
    apply same_seq.
    - unfold collation_text. destruct (fi_collation fi) as [|c cs]; cbn [is_empty negb when].
      + apply same_sym, same_empty.
      + apply same_sym, same_emit.
    - eapply same_trans; [|apply same_sym, same_emit].
      apply same_seq; apply emit_when. }
  unfold field_run, bare. destruct (fi_err fi).
  - apply same_refl.
  - apply same_seq; [apply same_refl|exact S].
Qed.
Lemma bare_eq fi gi vals d e x :
  fi_table gi = fi_table fi -> fi_talias gi = fi_talias fi -> fi_name gi = fi_name fi ->
  fi_formats gi = fi_formats fi -> fi_err gi = fi_err fi ->
  bare gi vals d e x = bare fi vals d e x.
Proof.
  intros A B C D E. unfold bare, shown_qualifier, qualifier. now rewrite A, B, C, D, E.
Qed.
Lemma render_field d k neg fi vals e x :
  render d (NField k neg fi vals) (ctx e x)
  = when neg (emit (B "NOT ")) ;; field_run d fi (map (mk d) vals) (if k then e else None) x.
Proof. reflexivity. Qed.

(** Any chain of calls: the field as before, then the collation, direction and
    null order last asked for, in this order.  The alias is the last one given;
    the name never changes. *)
Theorem modifiers_written : forall (d : dialect) (f : node) (ms : list modifier) (e : option env) (x : list bytes),
  unmodified f ->
  writes d (fold_left modify ms f) e x
    [V e x f; T (collation_text d (maybe (last_of as_collation ms)));
     T (maybe (last_of as_order ms)); T (maybe (last_of as_nulls ms))] /\
  get_alias (fold_left modify ms f) = maybe (last_of as_alias ms) /\
  get_name (fold_left modify ms f) = get_name f.
Proof.
  intros d f ms e x U. destruct f as [| | |k neg fi vals| | | | | | | | | | | | | | | | | | | | | | | |]; try (destruct U; fail).
  destruct U as (Ua & Uc & Ud & Un).
  rewrite modify_fold.
  destruct (modify_info_fold ms fi) as ((S1 & S2 & S3 & S4 & S5 & S6) & A & C & D & N).
  split; [|split].
  - apply writes_same.
    set (gi := fold_left (fun fi m => modify_info m fi) ms fi) in *.
    change (run d [V e x (NField k neg fi vals); T (collation_text d (maybe (last_of as_collation ms)));
      T (maybe (last_of as_order ms)); T (maybe (last_of as_nulls ms))])
      with (render d (NField k neg fi vals) (ctx e x) ;;
        emit (collation_text d (maybe (last_of as_collation ms))) ;;
        emit (maybe (last_of as_order ms)) ;; emit (maybe (last_of as_nulls ms)) ;; ret).
    rewrite !render_field, seq_assoc, seq_ret. apply same_seq; [apply same_refl|].
    eapply same_trans; [apply field_suffix|].
    rewrite (bare_eq fi gi) by assumption.
    eapply same_trans; [|apply same_seq; [apply same_sym, field_suffix|apply same_refl]].
    rewrite seq_assoc. apply same_seq; [apply same_refl|].
    unfold suffix at 2. rewrite Uc, Ud, Un. cbn [collation_text app].
    eapply same_trans; [|apply same_seq; [apply same_sym, same_empty|apply same_refl]].
    rewrite ret_seq. unfold suffix. rewrite C, D, N, Uc, Ud, Un.
    eapply same_trans; [apply same_emit|].
    apply same_seq; [unfold maybe; destruct (last_of as_collation ms); apply same_refl|].
    eapply same_trans; [apply same_emit|].
    rewrite order_texts, nulls_texts.
    apply same_seq; [destruct (last_of order_of ms) as [[]|]|destruct (last_of nulls_of ms) as [[]|]]; apply same_refl.
  - cbn [get_alias]. rewrite A, Ua. reflexivity.
  - cbn [get_name]. exact S4.
Qed.
Print Assumptions modifiers_written.
Theorem constructors_unmodified : forall (name s t ta format : bytes) (formats : list (bytes * bytes)) (vals : list node),
  unmodified (new_field name s t ta) /\ unmodified (fieldf format vals) /\ unmodified (fieldf_dialect formats vals) /\
  get_name (new_field name s t ta) = name.
Proof. intros. repeat split. Qed.
Print Assumptions constructors_unmodified.
Example modifiers_example :
  let f := fold_left modify [MDesc; MAs (B "x"); MNullsLast; MCollate (B "C"); MAsc; MNullsFirst; MAs (B "y")] (col (B "a")) in
  r_query (to_sql (B "postgres") f) = B "t.a COLLATE ""C"" ASC NULLS FIRST" /\ get_alias f = B "y" /\ get_name f = B "a".
Proof. split; [|split]; vm_compute; reflexivity. Qed.

(** FieldfDialect: the format for the dialect in use, else the default, in
    whatever order the map is visited; without a default it fails. *)
Lemma pick_in d formats : NoDup (map fst formats) -> forall df de,
  let r := pick_formats d formats df de in
  (forall f, In (B "default", f) formats -> snd r = Some f) /\
  (~ In (B "default") (map fst formats) -> snd r = de) /\
  (forall f, dialect_name d <> B "default" -> In (dialect_name d, f) formats -> fst r = Some f) /\
  (dialect_name d = B "default" \/ ~ In (dialect_name d) (map fst formats) -> fst r = df).
Proof.
  induction formats as [|[k g] formats IH]; intros ND df de.
  - cbn. split; [intros f []|]. split; [reflexivity|]. split; [intros f _ []|reflexivity].
  - inversion ND as [|? ? N1 N2]; subst. cbn [pick_formats map fst].
    destruct (beqb k (B "default")) eqn:E.
    + apply beqb_eq in E. subst k. destruct (IH N2 df (Some g)) as (P1 & P2 & P3 & P4). cbv zeta.
      split; [|split; [|split]].
      * intros f [H|H]; [rewrite <- (f_equal snd H : g = f); exact (P2 N1)|exact (P1 f H)].
      * intros H. destruct H. left. reflexivity.
      * intros f Hd [H|H]; [destruct (Hd (eq_sym (f_equal fst H)))|exact (P3 f Hd H)].
      * intros [H|H]; apply P4; [left; exact H|right; intros J; apply H; right; exact J].
    + assert (K : k <> B "default") by (intros ->; rewrite beqb_refl in E; discriminate).
      destruct (beqb k (dialect_name d)) eqn:E2.
      * apply beqb_eq in E2. subst k. destruct (IH N2 (Some g) de) as (P1 & P2 & P3 & P4). cbv zeta.
        split; [|split; [|split]].
        -- intros f [H|H]; [destruct (K (f_equal fst H))|exact (P1 f H)].
        -- intros H. apply P2. intros J. apply H. right. exact J.
        -- intros f Hd [H|H]; [rewrite <- (f_equal snd H : g = f); exact (P4 (or_intror N1))|exact (P3 f Hd H)].
        -- intros [H|H]; [congruence|]. destruct H. left. reflexivity.
      * assert (K2 : k <> dialect_name d) by (intros ->; rewrite beqb_refl in E2; discriminate).
        destruct (IH N2 df de) as (P1 & P2 & P3 & P4). cbv zeta.
        split; [|split; [|split]].
        -- intros f [H|H]; [destruct (K (f_equal fst H))|exact (P1 f H)].
        -- intros H. apply P2. intros J. apply H. right. exact J.
        -- intros f Hd [H|H]; [destruct (K2 (f_equal fst H))|exact (P3 f Hd H)].
        -- intros [H|H]; apply P4; [left; exact H|right; intros J; apply H; right; exact J].
Qed.
Lemma render_formats d formats vals e x :
  formats <> [] ->
  render d (fieldf_dialect formats vals) (ctx e x)
  = match pick_formats d formats None None with
    | (_, None) => fail
    | (df, Some def) => bufprintf (map (mk d) vals) None x (match df with Some f => f | None => def end)
    end.
Proof.
  intros H. unfold fieldf_dialect. rewrite render_field. cbn [when]. rewrite ret_seq.
  unfold field_run. cbn [fi_err fi_formats fi_collation fi_desc fi_nulls is_empty negb when].
  destruct formats as [|p formats]; [congruence|].
  destruct (pick_formats d (p :: formats) None None) as [df [def|]]; rewrite !seq_ret; reflexivity.
Qed.
Theorem fieldf_dialect_chooses : forall (d : dialect) (formats : list (bytes * bytes)) (vals : list node)
    (def f : bytes) (e : option env) (x : list bytes) (s : st),
  NoDup (map fst formats) ->
  In (B "default", def) formats ->
  (In (dialect_name d, f) formats \/ ~ In (dialect_name d) (map fst formats) /\ f = def) ->
  append_sql d (fieldf_dialect formats vals) e x s = append_sql d (fieldf f vals) e x s.
Proof.
  intros d formats vals def f e x s ND HD HF.
  assert (R : render d (fieldf_dialect formats vals) (ctx e x) = render d (fieldf f vals) (ctx e x)).
  { change (fieldf f vals) with (fieldf_dialect [(B "default", f)] vals).
    rewrite !render_formats by (try discriminate; intros ->; destruct HD).
    destruct (pick_in d formats ND None None) as (P1 & P2 & P3 & P4). cbv zeta in P1, P2, P3, P4.
    destruct (pick_formats d formats None None) as [df de]. cbn [fst snd] in P1, P2, P3, P4.
    rewrite (P1 def HD).
    change (pick_formats d [(B "default", f)] None None) with (@None bytes, Some f).
    destruct (beqb (dialect_name d) (B "default")) eqn:E.
    - apply beqb_eq in E. rewrite (P4 (or_introl E)).
      assert (f = def); [|now subst].
      destruct HF as [HF|[_ HF]]; [|exact HF]. rewrite E in HF.
      generalize (eq_trans (eq_sym (P1 f HF)) (P1 def HD)). intros J. injection J as J. exact J.
    - assert (K : dialect_name d <> B "default") by (intros K; rewrite K, beqb_refl in E; discriminate).
      destruct HF as [HF|[HF ->]]; [rewrite (P3 f K HF); reflexivity|rewrite (P4 (or_intror HF)); reflexivity]. }
  unfold append_sql. now rewrite R.
Qed.
Print Assumptions fieldf_dialect_chooses.
Theorem fieldf_dialect_without_default_fails : forall (d : dialect) (formats : list (bytes * bytes)) (vals : list node)
    (e : option env) (x : list bytes) (s : st),
  NoDup (map fst formats) -> formats <> [] -> ~ In (B "default") (map fst formats) ->
  append_sql d (fieldf_dialect formats vals) e x s = (s, SErr).
Proof.
  intros d formats vals e x s ND NE H. unfold append_sql. rewrite render_formats by exact NE.
  destruct (pick_in d formats ND None None) as (_ & P2 & _). cbv zeta in P2. specialize (P2 H).
  destruct (pick_formats d formats None None) as [df de]. cbn [snd] in P2. rewrite P2. reflexivity.
Qed.
Print Assumptions fieldf_dialect_without_default_fails.
Example fieldf_dialect_example :
  r_query (to_sql (B "mysql") (fieldf_dialect [(B "postgres", B "p({})"); (B "default", B "d({})"); (B "mysql", B "m({})")] [NRaw (GInt 1)])) = B "m(?)" /\
  r_query (to_sql (B "sqlite") (fieldf_dialect [(B "postgres", B "p({})"); (B "default", B "d({})"); (B "mysql", B "m({})")] [NRaw (GInt 1)])) = B "d($1)".
Proof. split; vm_compute; reflexivity. Qed.
(** A format for the very dialect in use does not help without a default; no
    formats at all is not an error: an empty name is written. *)
Theorem fieldf_dialect_default_refuted :
  r_status (to_sql (B "postgres") (fieldf_dialect [(B "postgres", B "now()")] [])) = SErr /\
  r_status (to_sql (B "postgres") (fieldf_dialect [] [])) = SOk /\
  r_query (to_sql (B "postgres") (fieldf_dialect [] [])) = B """""".
Proof. split; [|split]; vm_compute; reflexivity. Qed.
Print Assumptions fieldf_dialect_default_refuted.

(** ** C66: aggregate and window functions *)

Definition over (x : list bytes) (w : node) : list piece := [T (B " OVER "); V None x w].
Theorem functions_written : forall (d : dialect) (f v w : node) (n : Z) (e : option env) (x : list bytes),
  let a := fun (m : node) => [V None x m] in
  let star := [T (B "*")] in
  let int := [V None x (NRaw (GInt n))] in
  Forall (fun c => writes d (fst c) e x (snd c))
    [(count f, call (B "COUNT") [a f]); (count_all, call (B "COUNT") [star]); (sum f, call (B "SUM") [a f]);
     (avg f, call (B "AVG") [a f]); (min f, call (B "MIN") [a f]); (max f, call (B "MAX") [a f]);
     (count_over f w, call (B "COUNT") [a f] ++ over x w); (count_all_over w, call (B "COUNT") [star] ++ over x w);
     (sum_over f w, call (B "SUM") [a f] ++ over x w); (avg_over f w, call (B "AVG") [a f] ++ over x w);
     (min_over f w, call (B "MIN") [a f] ++ over x w); (max_over f w, call (B "MAX") [a f] ++ over x w);
     (row_number_over w, call (B "ROW_NUMBER") [] ++ over x w); (rank_over w, call (B "RANK") [] ++ over x w);
     (dense_rank_over w, call (B "DENSE_RANK") [] ++ over x w);
     (percent_rank_over w, call (B "PERCENT_RANK") [] ++ over x w);
     (cume_dist_over w, call (B "CUME_DIST") [] ++ over x w);
     (lead_over f n v w, call (B "LEAD") [a f; int; a v] ++ over x w);
     (lag_over f n v w, call (B "LAG") [a f; int; a v] ++ over x w);
     (ntile_over n w, call (B "NTILE") [int] ++ over x w);
     (first_value_over f w, call (B "FIRST_VALUE") [a f] ++ over x w);
     (last_value_over f w, call (B "LAST_VALUE") [a f] ++ over x w);
     (nth_value_over f n w, call (B "NTH_VALUE") [a f; int] ++ over x w)].
Proof.
  intros d f v w n e x a star int.
  repeat (apply Forall_cons; [cbn [fst snd];
    unfold count, count_all, sum, avg, min, max, count_over, count_all_over, sum_over, avg_over, min_over, max_over,
      row_number_over, rank_over, dense_rank_over, percent_rank_over, cume_dist_over, lead_over, lag_over, ntile_over,
      first_value_over, last_value_over, nth_value_over|]); [..|apply Forall_nil].
  - apply (by_fieldf d [B "COUNT("] (B ")")); reflexivity.
  - apply (by_fieldf d [] (B "COUNT(*)")); reflexivity.
  - apply (by_fieldf d [B "SUM("] (B ")")); reflexivity.
  - apply (by_fieldf d [B "AVG("] (B ")")); reflexivity.
  - apply (by_fieldf d [B "MIN("] (B ")")); reflexivity.
  - apply (by_fieldf d [B "MAX("] (B ")")); reflexivity.
  - apply (by_fieldf d [B "COUNT("; B ") OVER "] []); reflexivity.
  - apply (by_fieldf d [B "COUNT(*) OVER "] []); reflexivity.
  - apply (by_fieldf d [B "SUM("; B ") OVER "] []); reflexivity.
  - apply (by_fieldf d [B "AVG("; B ") OVER "] []); reflexivity.
  - apply (by_fieldf d [B "MIN("; B ") OVER "] []); reflexivity.
  - apply (by_fieldf d [B "MAX("; B ") OVER "] []); reflexivity.
  - apply (by_fieldf d [B "ROW_NUMBER() OVER "] []); reflexivity.
  - apply (by_fieldf d [B "RANK() OVER "] []); reflexivity.
  - apply (by_fieldf d [B "DENSE_RANK() OVER "] []); reflexivity.
  - apply (by_fieldf d [B "PERCENT_RANK() OVER "] []); reflexivity.
  - apply (by_fieldf d [B "CUME_DIST() OVER "] []); reflexivity.
  - apply (by_fieldf d [B "LEAD("; B ", "; B ", "; B ") OVER "] []); reflexivity.
  - apply (by_fieldf d [B "LAG("; B ", "; B ", "; B ") OVER "] []); reflexivity.
  - apply (by_fieldf d [B "NTILE("; B ") OVER "] []); reflexivity.
  - apply (by_fieldf d [B "FIRST_VALUE("; B ") OVER "] []); reflexivity.
  - apply (by_fieldf d [B "LAST_VALUE("; B ") OVER "] []); reflexivity.
  - apply (by_fieldf d [B "NTH_VALUE("; B ", "; B ") OVER "] []); reflexivity.
Qed.
Print Assumptions functions_written.

(** The clauses of a window: each at most once, separated by blanks. *)
Definition w_clause (keyword : bytes) (fs : list node) : list (list piece) :=
  match fs with
  | [] => []
  | _ => [[T keyword] ++ between (B ", ") (map (fun f => [V None [] f]) fs)]
  end.
Definition w_frame (frame : bytes) : list (list piece) := match frame with [] => [] | _ => [[T frame]] end.
Definition as_partition (m : wmod) : option (list node) := match m with WPartitionBy fs => Some fs | _ => None end.
Definition as_window_order (m : wmod) : option (list node) := match m with WOrderBy fs => Some fs | _ => None end.
Definition as_frame (m : wmod) : option bytes := match m with WFrame f => Some f | _ => None end.
Definition given {A} (o : option (list A)) : list A := match o with Some l => l | None => [] end.

Lemma w_modify_fold ms : forall p o f,
  fold_left w_modify ms (NWindow p o f)
  = NWindow (match last_of as_partition ms with Some p' => p' | None => p end)
            (match last_of as_window_order ms with Some o' => o' | None => o end)
            (match last_of as_frame ms with Some f' => f' | None => f end).
Proof.
  induction ms as [|m ms IH]; intros p o f; [reflexivity|]. cbn [fold_left last_of].
  destruct m as [fs|fs|fr]; cbn [w_modify]; rewrite IH;
    destruct (last_of as_partition ms), (last_of as_window_order ms), (last_of as_frame ms); reflexivity.
Qed.
Lemma fields_ok d fs : (forall f, In f fs -> snd (render d f (ctx None [])) = SOk) ->
  ignore_err (fields_run (map (mk d) fs) None []) = run d (between (B ", ") (map (fun f => [V None [] f]) fs)).
Proof.
  intros H.
  assert (E : fields_run (map (mk d) fs) None [] = run d (between (B ", ") (map (fun f => [V None [] f]) fs))).
  { rewrite <- sep_by_values. unfold fields_run. rewrite map_map. reflexivity. }
  rewrite E.
  assert (O : snd (run d (between (B ", ") (map (fun f => [V None [] f]) fs))) = SOk).
  { clear E. induction fs as [|f fs IH]; [reflexivity|].
    assert (Hf := H f (or_introl eq_refl)). assert (HI := IH (fun g J => H g (or_intror J))).
    destruct fs as [|g fs].
    - cbn [map between]. rewrite run_one. exact Hf.
    - cbn [map between] in HI |- *. cbn [app run]. unfold seq at 1. rewrite Hf. cbn [snd].
      unfold seq. cbn [emit snd]. exact HI. }
  unfold ignore_err. now rewrite O.
Qed.
Theorem window_written : forall (d : dialect) (ms : list wmod) (e : option env) (x : list bytes),
  let p := given (last_of as_partition ms) in
  let o := given (last_of as_window_order ms) in
  (forall f s, In f (p ++ o) -> snd (append_sql d f None [] s) = SOk) ->
  writes d (fold_left w_modify ms window0) e x
    ([T (B "(")]
     ++ between (B " ") (w_clause (B "PARTITION BY ") p ++ w_clause (B "ORDER BY ") o
                         ++ w_frame (given (last_of as_frame ms)))
     ++ [T (B ")")]).
Proof.
  intros d ms e x p o H. apply writes_same. unfold window0. rewrite w_modify_fold.
  change (match last_of as_partition ms with Some p' => p' | None => [] end) with p.
  change (match last_of as_window_order ms with Some o' => o' | None => [] end) with o.
  change (match last_of as_frame ms with Some f' => f' | None => [] end) with (given (last_of as_frame ms)).
  set (frame := given (last_of as_frame ms)).
  assert (Hp : forall f, In f p -> snd (render d f (ctx None [])) = SOk).
  { intros f J. exact (H f st0 (in_or_app _ _ _ (or_introl J))). }
  assert (Ho : forall f, In f o -> snd (render d f (ctx None [])) = SOk).
  { intros f J. exact (H f st0 (in_or_app _ _ _ (or_intror J))). }
  change (render d (NWindow p o frame) (ctx e x)) with
    (emit (B "(") ;;
     when (match p with [] => false | _ => true end) (emit (B "PARTITION BY ") ;;
            ignore_err (fields_run (map (mk d) p) None [])) ;;
     when (match o with [] => false | _ => true end)
       (when (match p with [] => false | _ => true end) (emit (B " ")) ;; emit (B "ORDER BY ") ;;
            ignore_err (fields_run (map (mk d) o) None [])) ;;
     when (negb (is_empty frame))
       (when ((match p with [] => false | _ => true end) || (match o with [] => false | _ => true end)) (emit (B " ")) ;; emit frame) ;;
     emit (B ")")).
  rewrite (fields_ok d p Hp), (fields_ok d o Ho).
  clear H Hp Ho. clearbody p o frame.
  unfold w_clause, w_frame.
  destruct p as [|p1 p], o as [|o1 o], frame as [|f1 frame]; cbn [is_empty negb when orb app between];
    rewrite ?run_app; cbn [run]; rewrite ?ret_seq, ?seq_ret, ?run_app; cbn [run app];
    rewrite ?seq_assoc, ?ret_seq, ?seq_ret, ?run_app; cbn [run app]; rewrite ?seq_assoc, ?ret_seq, ?seq_ret;
    apply same_refl.
Qed.
Print Assumptions window_written.
Example window_example :
  let w := fold_left w_modify [WOrderBy [col (B "z")]; WPartitionBy [col (B "a"); col (B "b")];
    WOrderBy [modify (col (B "c")) MDesc]; WFrame (B "ROWS UNBOUNDED PRECEDING")] window0 in
  r_query (to_sql (B "postgres") (sum_over (col (B "n")) w))
  = B "SUM(t.n) OVER (PARTITION BY t.a, t.b ORDER BY t.c DESC ROWS UNBOUNDED PRECEDING)" /\
  r_query (to_sql (B "postgres") (lag_over (col (B "n")) 2 (NRaw (GInt 0)) window0)) = B "LAG(t.n, $1, $2) OVER ()".
Proof. split; vm_compute; reflexivity. Qed.

Example window_fields_ok : forall f s,
  In f [col (B "a"); col (B "b"); modify (col (B "c")) MDesc] -> snd (append_sql DPostgres f None [] s) = SOk.
Proof. intros f s [<-|[<-|[<-|[]]]]; reflexivity. Qed.

(** A window drops the errors of its fields: a field that cannot be rendered
    leaves a truncated window and a nil error. *)
Theorem window_error_lost_refuted :
  let bad := fieldf (B "f({})") [] in
  r_status (to_sql (B "postgres") bad) = SErr /\
  r_status (to_sql (B "postgres") (rank_over (order_by [bad; col (B "a")]))) = SOk /\
  r_query (to_sql (B "postgres") (rank_over (order_by [bad; col (B "a")]))) = B "RANK() OVER (ORDER BY f()".
Proof. split; [|split]; vm_compute; reflexivity. Qed.
Print Assumptions window_error_lost_refuted.

(** ** C67: assignments *)

(** Assign and the Set methods: the target without environment, the value with
    a query bracketed. *)
Theorem assign_written : forall (d : dialect) (l r : node) (e : option env) (x : list bytes),
  writes d (assign l r) e x ([V None x l; T (B " = ")] ++ operand e x r).
Proof.
  intros d l r e x. apply writes_same.
  change (render d (assign l r) (ctx e x)) with
    (render d l (ctx None x) ;; emit (B " = ") ;;
     if is_query r then emit (B "(") ;; render d r (ctx e x) ;; emit (B ")") else render d r (ctx e x)).
  unfold operand. destruct (is_query r); cbn [app run]; rewrite !seq_ret; apply same_refl.
Qed.
Print Assumptions assign_written.

(** The shorthands write the column's name as it is. *)
Lemma literals_written d e x a b : writes d (assign (literal a) (literal b)) e x [T a; T (B " = "); T b].
Proof.
  apply writes_same. change (render d (assign (literal a) (literal b)) (ctx e x)) with (emit a ;; emit (B " = ") ;; emit b).
  cbn [run]. rewrite !seq_ret. apply same_refl.
Qed.
Theorem shorthands_written : forall (d : dialect) (f : node) (alias : bytes) (e : option env) (x : list bytes),
  let n := get_name f in
  writes d (assign_excluded f) e x [T n; T (B " = EXCLUDED."); T n] /\
  writes d (assign_alias f alias) e x [T n; T (B " = "); T alias; T (B "."); T n] /\
  writes d (assign_self f) e x [T n; T (B " = "); T n] /\
  writes d (assign_values f) e x [T n; T (B " = VALUES("); T n; T (B ")")].
Proof.
  intros d f alias e x n.
  assert (K : forall a b ps, same d (run d [T a; T (B " = "); T b]) (run d ps) ->
    writes d (assign (literal a) (literal b)) e x ps).
  { intros a b ps H. apply writes_same. eapply same_trans; [|exact H]. apply writes_same. apply literals_written. }
  split; [|split; [|split]]; apply K; cbn [run]; rewrite !seq_ret.
  - apply same_seq; [apply same_refl|].
    eapply same_trans; [apply same_sym, same_emit|].
    exact (same_emit d (B " = EXCLUDED.") n).
  - apply same_seq; [apply same_refl|]. apply same_seq; [apply same_refl|].
    eapply same_trans; [apply same_emit|]. apply same_seq; [apply same_refl|]. exact (same_emit d (B ".") n).
  - apply same_refl.
  - apply same_seq; [apply same_refl|].
    eapply same_trans; [apply same_sym, same_emit|].
    change (B " = " ++ B "VALUES(" ++ get_name f ++ B ")") with (B " = VALUES(" ++ n ++ B ")").
    eapply same_trans; [apply same_emit|]. apply same_seq; [apply same_refl|]. apply same_emit.
Qed.
Print Assumptions shorthands_written.

(** So they name the column exactly if the name needs no quotes. *)
Lemma text_of_writes d ts : forall s,
  out_text d (st_out (fst (write d (map T ts) s))) = out_text d (st_out s) ++ concat ts.
Proof.
  induction ts as [|t ts IH]; intros s; cbn [map write concat fst]; [now rewrite app_nil_r|].
  rewrite IH. cbn [st_out]. now rewrite out_text_app, out_text_text, app_assoc.
Qed.
Lemma length_concat_sum (ts : list bytes) : length (concat ts) = list_sum (map (@length ascii) ts).
Proof. induction ts as [|t ts IH]; [reflexivity|]. cbn [concat map]. rewrite app_length, IH. reflexivity. Qed.
Lemma length_of_writes d ts : length (sn_text (see d (write d (map T ts) st0))) = list_sum (map (@length ascii) ts).
Proof.
  unfold see. cbn [sn_text]. rewrite text_of_writes. cbn [st_out st0].
  replace (out_text d []) with (@nil ascii) by reflexivity. cbn [app]. apply length_concat_sum.
Qed.
Lemma quote_longer d n : quote_identifier d n = n \/ length n < length (quote_identifier d n).
Proof.
  unfold quote_identifier. destruct (needs_quoting n); [|left; reflexivity]. right.
  cbn [app length]. rewrite app_length. cbn [length].
  assert (H := escape_quote_length (ident_close d) n). lia.
Qed.
Theorem shorthands_name_the_column_iff : forall (d : dialect) (f : node) (alias : bytes) (e : option env) (x : list bytes),
  let q := quote_identifier d (get_name f) in
  (writes d (assign_excluded f) e x [T q; T (B " = EXCLUDED."); T q] <-> q = get_name f) /\
  (writes d (assign_alias f alias) e x [T q; T (B " = "); T alias; T (B "."); T q] <-> q = get_name f) /\
  (writes d (assign_self f) e x [T q; T (B " = "); T q] <-> q = get_name f) /\
  (writes d (assign_values f) e x [T q; T (B " = VALUES("); T q; T (B ")")] <-> q = get_name f).
Proof.
  intros d f alias e x q. destruct (shorthands_written d f alias e x) as (K1 & K2 & K3 & K4).
  destruct (quote_longer d (get_name f)) as [J|J]; fold q in J.
  - rewrite J. repeat split; intros; assumption || reflexivity.
  - assert (G : forall a ps qs, writes d a e x (map T ps) -> writes d a e x (map T qs) ->
      list_sum (map (@length ascii) ps) = list_sum (map (@length ascii) qs)).
    { intros a ps qs H1 H2. rewrite <- !(length_of_writes d).
      now rewrite (eq_trans (eq_sym (H1 st0)) (H2 st0)). }
    split; [|split; [|split]]; (split; [intros H; exfalso|intros E; rewrite E; assumption]).
    + pose proof (G _ [_; _; _] [_; _; _] H K1) as E. cbn [map list_sum fold_right] in E. lia.
    + pose proof (G _ [_; _; _; _; _] [_; _; _; _; _] H K2) as E. cbn [map list_sum fold_right] in E. lia.
    + pose proof (G _ [_; _; _] [_; _; _] H K3) as E. cbn [map list_sum fold_right] in E. lia.
    + pose proof (G _ [_; _; _; _] [_; _; _; _] H K4) as E. cbn [map list_sum fold_right] in E. lia.
Qed.
Print Assumptions shorthands_name_the_column_iff.
Example assign_example :
  r_query (to_sql (B "postgres") (assign (col (B "a")) (NRaw (GInt 1)))) = B "t.a = $1" /\
  r_query (to_sql (B "postgres") (assign_excluded (col (B "a")))) = B "a = EXCLUDED.a" /\
  quote_identifier DPostgres (get_name (col (B "a"))) = get_name (col (B "a")).
Proof. split; [|split]; vm_compute; reflexivity. Qed.
Theorem shorthands_unquoted_refuted :
  r_query (to_sql (B "postgres") (assign_excluded (col (B "firstName")))) = B "firstName = EXCLUDED.firstName" /\
  r_query (to_sql (B "postgres") (assign_values (col (B "a b")))) = B "a b = VALUES(a b)" /\
  r_query (to_sql (B "postgres") (assign (col (B "firstName")) (NRaw (GInt 1)))) = B "t.""firstName"" = $1".
Proof. split; [|split]; vm_compute; reflexivity. Qed.
Print Assumptions shorthands_unquoted_refuted.
