(** * Placeholders, arguments and parameters: C10 - C15, C41

    [append_sql d v e x s]: rendering the value [v] into the state [s] (buffer,
    argument list, params map); the result is the new state and the status.
    The buffer is a list of chunks; a placeholder chunk remembers the value
    that stood at its place in the tree ([KOrd i v] is the text $(i+1) or
    @p(i+1), [KMark v] is ?, [KNamed name v] is $name / @name / :name). *)
From Verif Require Import GoBase QuoteModel SprintModel TokenModel EffectModel RenderModel
  NodeInd SpecSim SpecNames SpecFormat BuildModel RenderRel RenderInst ExecFacts BindFacts BindPf FormatFacts.
From Coq Require Import Lia.

(** C10: rendering only appends, whether it succeeds or not. *)
Theorem rendering_appends : forall (d : dialect) (n : node) (e : option env) (x : list bytes) (s : st),
  let s' := fst (append_sql d n e x s) in
  (exists ks, st_out s' = st_out s ++ ks) /\
  (exists t, out_text d (st_out s') = out_text d (st_out s) ++ t) /\
  length (st_args s) <= length (st_args s') /\
  (forall i, i < length (st_args s) -> (forall name, ~ In i (pget name (st_params s))) ->
     nth_error (st_args s') i = nth_error (st_args s) i).
Proof. exact appends_pf. Qed.
Print Assumptions rendering_appends.

(** C11: for mysql the buffer gets texts and ?s only, and the values of the
    ?s, from left to right, are the new arguments. *)
Theorem mysql_marks_are_args : forall (n : node) (e : option env) (x : list bytes) (s : st),
  let s' := fst (append_sql DMySQL n e x s) in
  exists ks, st_out s' = st_out s ++ ks /\
             Forall (fun k => match k with KText _ | KMark _ => True | _ => False end) ks /\
             st_args s' = st_args s ++ marks ks.
Proof. exact mysql_marks_pf. Qed.
Print Assumptions mysql_marks_are_args.
(** The same, in terms of ToSQL: the query is n+1 pieces of text joined by ?. *)
Theorem mysql_question_marks : forall (n : node), exists segs,
  length segs = S (length (r_args (to_sql (B "mysql") n))) /\
  r_query (to_sql (B "mysql") n) = join (B "?") segs.
Proof. exact mysql_question_marks_pf. Qed.
Print Assumptions mysql_question_marks.
Example mysql_question_marks_ex :
  to_sql (B "mysql") (NPred [] (B "{1} = {} AND {2} = {1}") [NRaw (GInt 1); NSlice [NRaw (GInt 2); NRaw (GInt 3)]] false)
  = mk_result (B "? = ? AND ?, ? = ?") [GInt 1; GInt 1; GInt 2; GInt 3; GInt 1] [] SOk.
Proof. vm_compute. reflexivity. Qed.

(** C12: in the numbered dialects every ordinal is the number of an existing
    argument, and every argument has a placeholder. *)
Theorem ordinals_and_args : forall (d : dialect) (n : node) (e : option env) (x : list bytes),
  d = DPostgres \/ d = DSQLite \/ d = DSQLServer ->
  let s := fst (append_sql d n e x st0) in
  (forall i v, In (KOrd i v) (st_out s) -> i < length (st_args s)) /\
  (forall i, i < length (st_args s) ->
     (exists v, In (KOrd i v) (st_out s)) \/
     (exists name v w, In (KNamed name v) (st_out s) /\ nth_error (st_args s) i = Some (GNamedArg name w))).
Proof.
  intros d n e x Hd s. destruct (ordinals_pf d n e x st0) as [_ H1 H2]; auto using good0.
  now destruct Hd as [->|[->| ->]].
Qed.
Print Assumptions ordinals_and_args.
(** The same, in terms of ToSQL: the query consists of texts and of the
    placeholders $1, $2, ... (@p1, @p2, ... in SQL Server); each number is the
    number of an argument, counted from 1, and every argument that is no
    sql.NamedArg has its number in the query. *)
Definition number_text (d : dialect) (p : bytes + nat) : bytes :=
  match p with inl b => b | inr n => (if is_sqlserver d then B "@p" else B "$") ++ itoa n end.
Theorem numbered_placeholders : forall (dname : bytes) (n : node),
  let d := to_sql_dialect dname n in
  let r := to_sql dname n in
  d = DPostgres \/ d = DSQLite \/ d = DSQLServer ->
  exists pieces : list (bytes + nat),
    r_query r = flat_map (number_text d) pieces /\
    (forall k, In (inr k) pieces -> 1 <= k <= length (r_args r)) /\
    (forall k, 1 <= k <= length (r_args r) ->
       In (inr k) pieces \/ exists name w, nth_error (r_args r) (k - 1) = Some (GNamedArg name w)).
Proof.
  intros dname n d r Hd. destruct (ordinals_and_args d n None [] Hd) as [H1 H2].
  unfold r, to_sql. fold d. cbn [r_query r_args]. set (s := fst (append_sql d n None [] st0)) in *.
  exists (map (fun k => match k with KOrd i _ => inr (S i) | k => inl (chunk_text d k) end) (st_out s)).
  split; [|split].
  - unfold out_text. rewrite flat_map_concat_map, flat_map_concat_map, map_map. f_equal. apply map_ext.
    intros []; cbn [number_text chunk_text]; auto. now rewrite Nat.add_1_r.
  - intros k I. apply in_map_iff in I. destruct I as (c & E & I). destruct c; try discriminate. injection E as <-.
    apply H1 in I. lia.
  - intros k K. destruct (H2 (k - 1)) as [(v & I)|(name & v & w & _ & E)]; [lia| |right; eauto].
    left. apply in_map_iff. exists (KOrd (k - 1) v). split; auto. f_equal. lia.
Qed.
Print Assumptions numbered_placeholders.
(** ... and this is kept when rendering continues in the resulting state. *)
Theorem ordinals_and_args_step : forall (d : dialect) (n : node) (e : option env) (x : list bytes) (s : st),
  numbered d = true -> good s -> good (fst (append_sql d n e x s)).
Proof. exact ordinals_pf. Qed.
Print Assumptions ordinals_and_args_step.

(** C13: if names are used consistently, each placeholder is bound to the
    value at its place. *)
Theorem placeholders_bound : forall (d : dialect) (val : bytes -> gval) (n : node) (e : option env) (x : list bytes),
  d = DPostgres \/ d = DSQLite \/ d = DSQLServer -> well_named val n ->
  let s := fst (append_sql d n e x st0) in
  (forall i v, In (KOrd i v) (st_out s) -> nth_error (st_args s) i = Some v) /\
  (forall v, ~ In (KMark v) (st_out s)) /\
  (forall name v, In (KNamed name v) (st_out s) ->
     exists i, nth_error (st_args s) i = Some (GNamedArg name v)).
Proof.
  intros d val n e x Hd W. destruct (bound_pf d val n e x) as (L & [_ A2 A3 A4] & _); auto.
  now destruct Hd as [->|[->| ->]].
Qed.
Print Assumptions placeholders_bound.

(** A tree with consistent names: x = @a AND (x > @a OR {1} < {2} + {1}). *)
Definition named_tree : node :=
  p_and [p_eq (NLiteral (B "x") []) (NParam (B "a") (NRaw (GInt 5)));
         p_or [p_gt (NLiteral (B "x") []) (NParam (B "a") (NRaw (GInt 5)));
               p_format (B "{1} < {2} + {1}") [NRaw (GInt 7); NRaw (GInt 8)]]].
Lemma uses_ordinal_b f : uses_ordinal f -> existsb ord_item (format_items (length f) f) = true.
Proof.
  intros (body & I & N). apply existsb_exists. exists (FRef body). split; auto. cbn.
  destruct (atoi (ref_name body)); auto; contradiction.
Qed.
Ltac named_ok :=
  repeat match goal with
  | |- _ /\ _ => split
  | |- True => exact I
  | |- Forall _ _ => constructor
  | |- no_ordinals _ => intros ? ? []
  | |- everywhere no_ordinals (NRaw _) => apply everywhere_unfold
  | |- sub_all _ _ => exact I
  | |- forall (f : bytes) (vals : list node), _ -> uses_ordinal f -> _ =>
      let f := fresh "f" in let vs := fresh "vs" in let J := fresh "J" in let U := fresh "U" in
      intros f vs J U;
      first [contradiction |
             destruct J as [J|[]]; injection J as <- <-;
             first [exfalso; apply uses_ordinal_b in U; vm_compute in U; discriminate | clear U]]
  | |- _ = _ => reflexivity
  end.
Example placeholders_bound_ex :
  well_named (fun _ => GInt 5) named_tree /\
  to_sql (B "postgres") named_tree
  = mk_result (B "(x = $1 AND (x > $1 OR $2 < $3 + $2))") [GInt 5; GInt 7; GInt 8] [(B "a", [0])] SOk.
Proof.
  split; [|vm_compute; reflexivity]. unfold well_named, well_named_here. cbn -[B format_items]. named_ok.
Qed.

(** Finding: without the condition on ordinals it is false.  The inner {1}
    (the value 2) is sent to the database as the outer {1} (the value 1). *)
Theorem nested_ordinals_refuted :
  exists n s, fst (append_sql DPostgres n None [] st0) = s /\ snd (append_sql DPostgres n None [] st0) = SOk /\ In (KOrd 0 (GInt 2)) (st_out s) /\ st_args s = [GInt 1].
Proof.
  exists (p_format (B "{1} = {2}") [NRaw (GInt 1); p_format (B "{1}") [NRaw (GInt 2)]]).
  eexists. split; [reflexivity|]. split; [vm_compute; reflexivity|].
  split; vm_compute; [auto 10|reflexivity].
Qed.
Print Assumptions nested_ordinals_refuted.

(** Finding: a named parameter whose name is a numeral is taken for an ordinal. *)
Theorem numeral_param_refuted :
  exists n s, fst (append_sql DPostgres n None [] st0) = s /\ snd (append_sql DPostgres n None [] st0) = SOk /\ In (KOrd 0 (GInt 2)) (st_out s) /\ st_args s = [GInt 1].
Proof.
  exists (p_format (B "{} = {2}") [NParam (B "2") (NRaw (GInt 1)); NRaw (GInt 2)]).
  eexists. split; [reflexivity|]. split; [vm_compute; reflexivity|].
  split; vm_compute; [auto 10|reflexivity].
Qed.
Print Assumptions numeral_param_refuted.

(** Finding: sq.Param and sql.Named with the same name share one argument, so
    the database is sent a $name without a named argument. *)
Theorem param_and_named_arg_refuted :
  let s := fst (append_sql DSQLite
    (p_format (B "{} = {}") [NRaw (GNamedArg (B "a") (GInt 1)); NParam (B "a") (NRaw (GInt 1))]) None [] st0) in
  out_text DSQLite (st_out s) = B "$a = $1" /\ st_args s = [GInt 1].
Proof. vm_compute. split; reflexivity. Qed.
Print Assumptions param_and_named_arg_refuted.

(** C14: bound values do not influence the SQL text.  [sim V n n']: the trees
    differ only in the values they bind, and these are related by [V]. *)
Theorem values_do_not_affect_sql : forall (V : gval -> gval -> Prop) (dname : bytes) (n n' : node),
  (forall v, V v v) -> sim V n n' ->
  r_query (to_sql dname n) = r_query (to_sql dname n') /\
  r_params (to_sql dname n) = r_params (to_sql dname n') /\
  r_status (to_sql dname n) = r_status (to_sql dname n') /\
  Forall2 V (r_args (to_sql dname n)) (r_args (to_sql dname n')).
Proof. exact to_sql_values_pf. Qed.
Print Assumptions values_do_not_affect_sql.
(** ... in any state, environment and exclusion list. *)
Theorem values_do_not_affect_appending : forall (d : dialect) (V : gval -> gval -> Prop) (n n' : node)
    (e : option env) (x : list bytes) (s : st),
  (forall v, V v v) -> sim V n n' ->
  let r := append_sql d n e x s in
  let r' := append_sql d n' e x s in
  out_text d (st_out (fst r)) = out_text d (st_out (fst r')) /\
  st_params (fst r) = st_params (fst r') /\ snd r = snd r' /\
  Forall2 V (st_args (fst r)) (st_args (fst r')).
Proof.
  intros d V n n' e x s HV S r r'. destruct (values_pf d V HV n n' e x s s S) as [[H1 H2 H3] H4].
  { constructor; auto.
    - induction (st_out s) as [|k l IH]; constructor; auto. destruct k; cbn; auto.
    - induction (st_args s); constructor; auto. }
  repeat split; auto. now apply chunk_text_rel.
Qed.
Print Assumptions values_do_not_affect_appending.
Example values_do_not_affect_sql_ex :
  sim (fun _ _ => True)
    (p_eq (NLiteral (B "x") []) (NRaw (GInt 1)))
    (p_eq (NLiteral (B "x") []) (NRaw (GString (B "'; DROP TABLE t --")))).
Proof. unfold p_eq, p_cmp, p_format. repeat constructor. Qed.

(** C15: indices in the params map are argument indices. *)
Theorem params_indices_valid : forall (d : dialect) (n : node) (e : option env) (x : list bytes) (s : st),
  (forall name i, In i (pget name (st_params s)) -> i < length (st_args s)) ->
  let s' := fst (append_sql d n e x s) in
  forall name i, In i (pget name (st_params s')) -> i < length (st_args s').
Proof. intros d n e x s H. exact (exec_params_in_range d _ s H). Qed.
Print Assumptions params_indices_valid.

(** C15: a rendered parameter is registered under its name, at an argument
    that is its value ... *)
Theorem param_registers : forall (d : dialect) (name : bytes) (v : gval) (e : option env) (x : list bytes) (s : st),
  name <> [] -> (forall name i, In i (pget name (st_params s)) -> i < length (st_args s)) ->
  let r := append_sql d (NParam name (NRaw v)) e x s in
  snd r = SOk /\
  exists i, In i (pget name (st_params (fst r))) /\ nth_error (st_args (fst r)) i = Some v /\
            In (if numbered d then KOrd i v else KMark v) (st_out (fst r)).
Proof. exact param_registers_pf. Qed.
Print Assumptions param_registers.
Example param_registers_ex :
  let r := append_sql DPostgres (NParam (B "a") (NRaw (GInt 1))) None []
             (mk_st [] [GInt 0; GInt 9] [(B "b", [0]); (B "a", [1])]) in
  st_args (fst r) = [GInt 0; GInt 1] /\ st_out (fst r) = [KOrd 1 (GInt 1)].
Proof. vm_compute. split; reflexivity. Qed.
(** ... and stays registered whatever is rendered later. *)
Theorem params_persist : forall (d : dialect) (n : node) (e : option env) (x : list bytes) (s : st) (name : bytes),
  atoi name = None ->
  incl (pget name (st_params s)) (pget name (st_params (fst (append_sql d n e x s)))).
Proof. exact params_persist_pf. Qed.
Print Assumptions params_persist.

(** C15: with consistent names, after success the params map has for each name
    at most one index, the argument there is the value of that name, and no
    ordinals are left in the map. *)
Theorem params_locate : forall (d : dialect) (val : bytes -> gval) (n : node) (e : option env) (x : list bytes),
  d = DPostgres \/ d = DSQLite \/ d = DSQLServer -> well_named val n ->
  snd (append_sql d n e x st0) = SOk ->
  let s := fst (append_sql d n e x st0) in
  forall name, pget name (st_params s) <> [] ->
    atoi name = None /\
    exists i, pget name (st_params s) = [i] /\ nth_error (st_args s) i = Some (val name).
Proof.
  intros d val n e x Hd W Ok s name NE. destruct (bound_pf d val n e x) as (L & [A1 _ _ _] & O); auto.
  { now destruct Hd as [->|[->| ->]]. }
  specialize (A1 name). destruct (mget name L) as [v|] eqn:E; [|contradiction].
  destruct (O Ok _ _ E) as [E1 ->]. split; auto.
Qed.
Print Assumptions params_locate.
(** MySQL: all indices of a name hold its value. *)
Theorem params_locate_mysql : forall (val : bytes -> gval) (n : node) (e : option env) (x : list bytes),
  well_named_params val n ->
  let s := fst (append_sql DMySQL n e x st0) in
  forall name i, In i (pget name (st_params s)) -> nth_error (st_args s) i = Some (val name).
Proof. exact mysql_params_pf. Qed.
Print Assumptions params_locate_mysql.
Example params_locate_mysql_ex :
  well_named_params (fun _ => GInt 5) named_tree /\
  r_params (to_sql (B "mysql") named_tree) <> [] /\
  pget (B "a") (r_params (to_sql (B "mysql") named_tree)) = [0; 1].
Proof.
  repeat split; try (vm_compute; (reflexivity || discriminate)).
Qed.

(** Finding: after an error ordinals remain in the params map (and can capture
    later references if the caller goes on rendering, as windows do). *)
Theorem ordinals_left_after_error_refuted :
  let r := append_sql DPostgres (p_format (B "{1} {2}") [NRaw (GInt 1)]) None [] st0 in
  snd r = SErr /\ pget (B "1") (st_params (fst r)) = [0].
Proof. vm_compute. split; reflexivity. Qed.
Print Assumptions ordinals_left_after_error_refuted.

(** C41: rendering never panics if every format is well formed and there are
    no nil queries in subqueries and no nil tables in a DELETE. *)
Definition safe_here (n : node) : Prop :=
  (forall f vals, In (f, vals) (formats_of n) ->
     exists hs fin, good_holes hs fin /\ f = format_text hs fin) /\
  match n with
  | NSubquery q => sb_query q <> None
  | NDelete q => ~ In None (dq_tables q)
  | _ => True
  end.
Theorem rendering_never_panics : forall (d : dialect) (n : node) (e : option env) (x : list bytes) (s : st),
  everywhere safe_here n -> snd (append_sql d n e x s) <> SPanic.
Proof.
  intros d n e x s H. apply no_panic_pf. revert H. apply everywhere_mono. clear. intros n [H1 H2].
  assert (F : forall f vals, In (f, vals) (formats_of n) -> fmt_safe f).
  { intros f vals I. destruct (H1 f vals I) as (hs & fin & G & ->). now apply good_format_safe. }
  destruct n; cbn in *; auto; try (eapply F; now left); try (right; exact H2);
    try (destruct v; exact I); try (destruct n; exact I); intros k f I; apply (F f _ (in_map (fun kf => (snd kf, _)) _ _ I)).
Qed.
Print Assumptions rendering_never_panics.
Example rendering_never_panics_ex :
  everywhere safe_here (p_and [p_eq (NLiteral (B "x") []) (NRaw (GInt 1))]).
Proof.
  unfold p_and, p_eq, p_cmp, p_format. cbn -[B safe_here]. unfold safe_here.
  repeat match goal with
  | |- _ /\ _ => split
  | |- True => exact I
  | |- forall f vals, In _ _ -> _ => intros f vals J; cbn -[B] in J; try contradiction
  end.
  destruct J as [J|[]]. injection J as <- <-.
  exists [([], HNext); (B " = ", HNext)], []. split; [|reflexivity].
  split; [|intros []].
  repeat (apply Forall_cons; [split; [intros J; cbn in J; intuition discriminate|exact I]|]).
  apply Forall_nil.
Qed.

(** Findings: a format that ends in '{', a nil query in a Subquery, a nil
    table in a MySQL multi-table DELETE: run-time panics. *)
Theorem trailing_brace_panics_refuted :
  snd (append_sql DPostgres (p_format (B "a = {") []) None [] st0) = SPanic.
Proof. vm_compute. reflexivity. Qed.
Print Assumptions trailing_brace_panics_refuted.
Theorem nil_delete_table_panics_refuted :
  snd (append_sql DMySQL (NDelete (mk_delete (B "mysql") None [] [None] (Some (NTable [] (B "t") [] None)) []
    (mk_vpred false [] false [] false) [] None None [])) None [] st0) = SPanic.
Proof. vm_compute. reflexivity. Qed.
Print Assumptions nil_delete_table_panics_refuted.
