(** * PropertiesTouch: rendering does not spoil a statement (C77). *)
From Coq Require Import Lia.
From Verif Require Import GoBase GoBaseFacts QuoteModel SprintModel TokenModel EffectModel RenderModel
  BuildModel NodeInd SpecSim SpecTouch RenderRel RenderInst BindPf.

Lemma render_touched n n' c : touched n n' -> render DSQLite n c = render DSQLite n' c.
Proof.
  intros S.
  refine (render_rel DSQLite eq (fun _ => eq) True (fun _ => True) (fmt_ok True) (fun _ _ => True)
    _ _ _ _ _ _ _ _ _ _ _ _ _ _ _ true _ n n' c S (always_ok n)); auto; unfold fmt_ok; auto;
    try (intros; subst; auto; fail).
  - intros; now f_equal.
  - intros vals vals' e x fmt H _ _. apply (printf_rel DSQLite eq eq True); auto; intros; now subst.
Qed.

Lemma after_dialect d n n' dname : after d n n' -> to_sql_dialect dname n = to_sql_dialect dname n'.
Proof.
  intros [|m _ S]; auto. unfold to_sql_dialect.
  now rewrite (sim_is_query _ _ _ _ S), (sim_dialect _ _ _ _ S).
Qed.
Lemma after_sqlite d n n' dname : after d n n' -> to_sql_dialect dname n = DSQLite ->
  to_sql dname n' = to_sql dname n.
Proof.
  intros A D. pose proof (after_dialect _ _ _ dname A) as D'. destruct A as [|m _ S]; auto.
  unfold to_sql. rewrite <- D', D. unfold append_sql. now rewrite (render_touched _ _ _ S).
Qed.

(** C77.  However often a statement has been rendered, in whatever dialects:
    rendering it for sqlite gives what rendering it first would have given, and
    so does rendering it for any dialect as long as it was not rendered for
    sqlite before. *)
Theorem rendering_again n l i dname r :
  history n l -> nth_error l i = Some (dname, r) ->
  to_sql_dialect dname n = DSQLite \/
  (forall j dname' r', (j < i)%nat -> nth_error l j = Some (dname', r') ->
     to_sql_dialect dname' n <> DSQLite) ->
  r = to_sql dname n.
Proof.
  intros H. revert i. induction H as [n|dn n n' l A H IH]; intros i E C; [now destruct i|].
  destruct i as [|i]; cbn in E; [congruence|].
  destruct C as [D|F].
  - rewrite (IH i E), (after_sqlite _ _ _ _ A D); auto. left. now rewrite <- (after_dialect _ _ _ dname A).
  - assert (N : to_sql_dialect dn n <> DSQLite) by (apply (F 0%nat dn (to_sql dn n)); [lia|auto]).
    destruct A as [|m D _]; [|contradiction].
    apply (IH i E). right. intros j dn' r' L Ej. apply (F (S j) dn' r'); [lia|exact Ej].
Qed.
Print Assumptions rendering_again.

(** The write itself is one of the changes [after] allows, wherever the INSERT is. *)
Theorem write_is_after d q q' :
  insert_write d q = Some q' -> after d (NInsert q) (NInsert q').
Proof.
  unfold insert_write. destruct (iq_rows q); [|discriminate]. destruct (iq_select q) as [s|] eqn:Es; [|discriminate].
  destruct (vp_preds (sq_where s)) eqn:Ew; [|now rewrite andb_false_r].
  destruct d; try discriminate. cbn [is_sqlite andb]. intros [= <-].
  apply after_writes; [reflexivity|]. apply (sim_filled _ _ _ _ s); auto.
  pose proof (gsim_refl true eq (fun v => eq_refl) (NInsert (with_source q (filled_select s)))) as R.
  inversion R as [| | | | | | | | | | | | | | | | | | | | | | | | | | | | q1 q2 I|q1 q2 s1 _ Es1 Ew1 I| |]; subst; auto.
  cbn in Es1. injection Es1 as <-. cbn in Ew1. discriminate.
Qed.
Print Assumptions write_is_after.

(** `INSERT INTO t SELECT x FROM u` as a query-builder value. *)
Definition copy_rows : insert_ node :=
  let nowhere := mk_vpred false [] false [] false in
  mk_insert [] None None [] false (Some (NTable [] (B "t") [] None)) [] [] [] []
    (Some (mk_select [] None [] false [NLiteral (B "x") []] [] (Some (NTable [] (B "u") [] None)) []
             nowhere [] nowhere [] None None))
    [] [] None false [] nowhere [].

(** Beside: the statement is rendered for postgres, twice for sqlite, and
    every rendering but one for another dialect after sqlite is the first one. *)
Example rendering_again_example :
  exists n', after DSQLite (NInsert copy_rows) n' /\ n' <> NInsert copy_rows /\
    r_query (to_sql (B "sqlite") (NInsert copy_rows)) = B "INSERT INTO t SELECT x FROM u WHERE TRUE" /\
    history (NInsert copy_rows)
      [(B "postgres", to_sql (B "postgres") (NInsert copy_rows));
       (B "sqlite", to_sql (B "sqlite") (NInsert copy_rows));
       (B "sqlite", to_sql (B "sqlite") n')].
Proof.
  destruct (insert_write DSQLite copy_rows) as [q'|] eqn:W; [|discriminate].
  pose proof (write_is_after _ _ _ W) as A. injection W as W. exists (NInsert q').
  split; [exact A|]. split; [subst q'; discriminate|]. split; [vm_compute; reflexivity|].
  eapply hist_cons; [apply after_nothing|]. eapply hist_cons; [exact A|].
  eapply hist_cons; [apply after_nothing|]. apply hist_nil.
Qed.

(** Not so across dialects: once rendered for sqlite, the statement renders
    for postgres with a WHERE clause its author never wrote. *)
Theorem rendering_other_dialect_refuted :
  ~ (forall n l i dname r, history n l -> nth_error l i = Some (dname, r) -> r = to_sql dname n).
Proof.
  intros H. destruct (insert_write DSQLite copy_rows) as [q'|] eqn:W; [|discriminate].
  pose proof (write_is_after _ _ _ W) as A. injection W as W.
  pose proof (H _ _ 1%nat (B "postgres") (to_sql (B "postgres") (NInsert q'))
    (hist_cons (B "sqlite") (NInsert copy_rows) _ [(B "postgres", to_sql (B "postgres") (NInsert q'))] A
       (hist_cons (B "postgres") (NInsert q') _ [] (after_nothing _ _) (hist_nil _))) eq_refl) as E.
  subst q'. vm_compute in E. discriminate E.
Qed.
Print Assumptions rendering_other_dialect_refuted.
