(** * ClauseFacts: the four statements are the lists of clauses of SpecClauses *)
From Coq Require Import Lia.
From Verif Require Import GoBase GoBaseFacts QuoteModel SprintModel TokenModel EffectModel RenderModel BuildModel
  SpecClauses RenderRel BoolFacts FormatFacts.
Local Open Scope m_scope.

Lemma seq_ok a b : snd (a ;; b) = SOk <-> snd a = SOk /\ snd b = SOk.
Proof. destruct a as [ca []], b as [cb []]; cbn; intuition congruence. Qed.
Lemma seqs_ok ms : snd (seqs ms) = SOk <-> Forall (fun m => snd m = SOk) ms.
Proof.
  induction ms as [|m ms IH]; cbn [seqs].
  - split; auto.
  - rewrite seq_ok, IH. split; [intros []; auto|]. inversion 1; auto.
Qed.
Lemma sep_by_ok s ms : snd (sep_by s ms) = SOk <-> Forall (fun m => snd m = SOk) ms.
Proof.
  destruct ms as [|m ms]; cbn [sep_by]; [split; auto|].
  rewrite seq_ok, seqs_ok, Forall_map. split.
  - intros [H1 H2]. constructor; auto.
  - inversion 1; subst; split; auto.
Qed.
Lemma when_ok (b : bool) m : snd (when b m) = SOk <-> (b = true -> snd m = SOk).
Proof. destruct b; cbn; intuition congruence. Qed.

Lemma statement_cons c cs : statement (c :: cs) = when (cl_set c) (cl_sql c) ;; statement cs.
Proof. unfold statement. cbn [filter]. destruct (cl_set c); cbn [map seqs when]; auto. now rewrite ret_seq'. Qed.

Lemma nonempty_map {A C} (f : A -> C) l : nonempty (map f l) = nonempty l.
Proof. now destruct l. Qed.
Lemma match_nonempty {A} (l : list A) (m k : M) : match l with [] => m | _ => k end = if nonempty l then k else m.
Proof. now destruct l. Qed.

Section Facts.
  Context (d : dialect).
  Local Notation mkd := (mk d).

  Lemma cond_eq p : clause_run (vpred_map mkd p) [] = cond_sql d p.
  Proof. unfold clause_run, cond_sql. rewrite render_vpred. cbn [vpred_map vp_or vp_neg vp_preds c_top c_excl]. now rewrite map_map. Qed.
  Lemma list_eq fs e x : fields_run (map mkd fs) e x = list_sql d e x fs.
  Proof. unfold fields_run, list_sql. now rewrite map_map. Qed.
  Lemma columns_eq fs e : alias_fields_run d (map mkd fs) e [] = columns_sql d fs.
  Proof.
    unfold alias_fields_run, columns_sql. rewrite map_map. f_equal. apply map_ext. intros f. cbn [mk k_node k_run].
    destruct (is_nil f) eqn:E; [|reflexivity]. destruct f; try discriminate. destruct v; try discriminate.
    reflexivity.
  Qed.
  Lemma table_eq e t : k_run (mkd t) (ctx e []) ;; as_alias d (k_alias (mkd t)) = table_sql d e t.
  Proof. reflexivity. Qed.
  Lemma limit_eq n e : int_clause (B " LIMIT {}") n e = number_sql d (B " LIMIT ") n.
  Proof. destruct n; reflexivity. Qed.
  Lemma offset_eq n e : int_clause (B " OFFSET {}") n e = number_sql d (B " OFFSET ") n.
  Proof. destruct n; reflexivity. Qed.
  Lemma number_none k : number_sql d k None = ret.
  Proof. reflexivity. Qed.
  Lemma assigns_eq l x : assigns_run (map (pair_map mkd) l) x = assigns_sql d x l.
  Proof. unfold assigns_run, assigns_sql. now rewrite map_map. Qed.

  (** Joins *)
  Lemma needs_on_eq ty : needs_on ty = beqb ty (B "JOIN") || (beqb ty (B "RIGHT JOIN") || beqb ty (B "FULL JOIN")).
  Proof. unfold needs_on. cbn [existsb]. now rewrite orb_false_r. Qed.
  Lemma not_in_sqlite_eq ty : not_in_sqlite ty = beqb ty (B "RIGHT JOIN") || beqb ty (B "FULL JOIN").
  Proof. unfold not_in_sqlite. cbn [existsb]. now rewrite orb_false_r. Qed.
  Lemma join_run_eq j : join_run d (join_map mkd j) =
    if join_ok d j then join_sql d j
    else join_run d (join_map mkd j).
  Proof.
    destruct (join_ok d j) eqn:E; auto. unfold join_ok in E. rewrite !andb_true_iff in E. destruct E as [[E1 E2] E3].
    unfold join_run, join_sql. cbn [join_map jn_type jn_table jn_on]. fold (join_type j).
    rewrite needs_on_eq in E2. rewrite not_in_sqlite_eq in E3. cbn [vpred_map vp_preds].
    apply negb_true_iff in E3. rewrite E3.
    destruct (jn_table j) as [t|]; [|discriminate]. cbn [option_map].
    replace (match map mkd (vp_preds (jn_on j)) with [] => true | _ => false end) with (negb (nonempty (vp_preds (jn_on j))))
      by now destruct (vp_preds (jn_on j)).
    replace (negb (nonempty (vp_preds (jn_on j))) && (beqb (join_type j) (B "JOIN") || (beqb (join_type j) (B "RIGHT JOIN") || beqb (join_type j) (B "FULL JOIN")))) with false
      by (destruct (nonempty (vp_preds (jn_on j))); cbn [negb orb andb] in *; auto; now apply negb_true_iff in E2).
    rewrite negb_involutive. rewrite cond_eq. reflexivity.
  Qed.
  Lemma join_run_ok j : snd (join_run d (join_map mkd j)) = SOk -> join_ok d j = true.
  Proof.
    unfold join_run, join_ok. cbn [join_map jn_type jn_table jn_on]. fold (join_type j).
    rewrite needs_on_eq, not_in_sqlite_eq. cbn [vpred_map vp_preds].
    replace (match map mkd (vp_preds (jn_on j)) with [] => true | _ => false end) with (negb (nonempty (vp_preds (jn_on j))))
      by now destruct (vp_preds (jn_on j)).
    destruct (negb (nonempty (vp_preds (jn_on j))) && (beqb (join_type j) (B "JOIN") || (beqb (join_type j) (B "RIGHT JOIN") || beqb (join_type j) (B "FULL JOIN")))) eqn:E1; [discriminate|].
    destruct (is_sqlite d && (beqb (join_type j) (B "RIGHT JOIN") || beqb (join_type j) (B "FULL JOIN"))) eqn:E2; [discriminate|].
    rewrite seq_ok. destruct (jn_table j) as [t|]; [|intros [_ H]; discriminate H]. intros _.
    cbn [present andb negb]. rewrite andb_true_r.
    destruct (nonempty (vp_preds (jn_on j))); cbn [negb orb andb] in *; auto. now rewrite E1.
  Qed.
  Lemma joins_eq js : forallb (join_ok d) js = true ->
    joins_run d (map (join_map mkd) js) = sep_by (B " ") (map (join_sql d) js).
  Proof.
    intros H. unfold joins_run. rewrite map_map. f_equal. apply map_ext_in. intros j I.
    rewrite forallb_forall in H. rewrite join_run_eq, (H j I). reflexivity.
  Qed.
  Lemma joins_ok js : snd (joins_run d (map (join_map mkd) js)) = SOk -> forallb (join_ok d) js = true.
  Proof.
    unfold joins_run. rewrite sep_by_ok, map_map, Forall_map, Forall_forall, forallb_forall.
    intros H j I. apply join_run_ok. auto.
  Qed.

  (** CTEs *)
  Lemma cte_eq c : cte_ok c = true -> cte_def_run d (cte_map mkd c) = cte_sql d c.
  Proof.
    unfold cte_ok. rewrite !andb_true_iff. intros [[E1 E2] E3].
    unfold cte_def_run, cte_sql. cbn [cte_map cte_err cte_name cte_query cte_explicit cte_fields cte_mat].
    apply negb_true_iff in E1, E2. rewrite E1, E2. destruct (cte_query c) as [q|]; [|discriminate].
    reflexivity.
  Qed.
  Lemma cte_ok_run c : snd (cte_def_run d (cte_map mkd c)) = SOk -> cte_ok c = true.
  Proof.
    unfold cte_def_run, cte_ok. cbn [cte_map cte_err cte_name cte_query cte_explicit cte_fields cte_mat].
    destruct (cte_err c); [discriminate|]. destruct (is_empty (cte_name c)); [discriminate|].
    rewrite !seq_ok. destruct (cte_query c) as [q|]; auto. cbn [option_map]. intros H. exfalso.
    destruct H as (_ & _ & _ & _ & _ & H & _). discriminate H.
  Qed.
  Lemma existsb_rec cs : existsb cte_rec (map (cte_map mkd) cs) = existsb cte_rec cs.
  Proof. induction cs; cbn; auto. now rewrite IHcs. Qed.
  Lemma with_eq cs : forallb cte_ok cs = true ->
    with_clause d (map (cte_map mkd) cs) = when (cl_set (with_clause_sql d cs)) (cl_sql (with_clause_sql d cs)).
  Proof.
    intros H. unfold with_clause_sql. cbn [cl_set cl_sql]. destruct cs as [|c cs]; auto.
    unfold with_clause. set (l := c :: cs) in *. change (map (cte_map mkd) (c :: cs)) with (map (cte_map mkd) l).
    assert (E : match map (cte_map mkd) l with [] => ret | _ => ctes_run d (map (cte_map mkd) l) end = ctes_run d (map (cte_map mkd) l)) by reflexivity.
    rewrite E. unfold ctes_run. rewrite existsb_rec, map_map. change (nonempty l) with true. cbn [when]. f_equal. f_equal. f_equal.
    apply map_ext_in. intros a I. rewrite forallb_forall in H. now apply cte_eq, H.
  Qed.
  Lemma with_ok cs : snd (with_clause d (map (cte_map mkd) cs)) = SOk -> forallb cte_ok cs = true.
  Proof.
    intros H. assert (H' : Forall (fun m => snd m = SOk) (map (cte_def_run d) (map (cte_map mkd) cs))).
    { destruct cs as [|c cs]; [constructor|]. unfold with_clause in H. cbn [map] in H. unfold ctes_run in H.
      rewrite !seq_ok in H. destruct H as (_ & H & _). now apply sep_by_ok in H. }
    rewrite map_map, Forall_map, Forall_forall in H'. rewrite forallb_forall. intros c I. apply cte_ok_run. auto.
  Qed.

  (** Hooks *)
  Lemma hook_mk t e : k_hook (mkd t) e =
    match table_hook t e with HErr => HErr | HNil => HNil | HPred p => HPred (p, render d p) end.
  Proof.
    cbn [mk k_hook]. unfold hook_of, table_hook. destruct t; auto. destruct hook as [h|]; auto.
    destruct (h e) as [| |p]; auto. now destruct (is_nil p).
  Qed.
  Lemma hooks_eq ts e : hooks_run (map (option_map mkd) ts) e =
    if hook_fails ts e then None else Some (map (fun p => (p, render d p)) (injected ts e)).
  Proof.
    induction ts as [|t ts IH]; auto. cbn [map hooks_run]. rewrite IH. clear IH.
    unfold hook_fails, injected, tables_of. cbn [flat_map].
    destruct t as [t|]; cbn [option_map app]; [|reflexivity].
    rewrite hook_mk. cbn [existsb flat_map]. destruct (table_hook t e); cbn [orb app map]; auto.
    now destruct (existsb _ _).
  Qed.
  Lemma table_hook_not_nil t e p : table_hook t e = HPred p -> is_nil p = false.
  Proof.
    unfold table_hook. destruct t; try discriminate. destruct hook as [h|]; try discriminate.
    destruct (h e) as [| |p']; try discriminate. destruct (is_nil p') eqn:E; try discriminate. congruence.
  Qed.
  Lemma injected_not_nil ts e p : In p (injected ts e) -> is_nil p = false.
  Proof.
    unfold injected. rewrite in_flat_map. intros (t & _ & H). destruct (table_hook t e) eqn:E; try contradiction.
    destruct H as [<-|[]]. eapply table_hook_not_nil; eauto.
  Qed.
  Lemma where_eq ts e w :
    where_run (if hook_fails ts e then None else Some (map (fun p => (p, render d p)) (injected ts e))) (vpred_map mkd w)
    = if hook_fails ts e then fail
      else when (cl_set (where_sql d (injected ts e) w)) (cl_sql (where_sql d (injected ts e) w)).
  Proof.
    destruct (hook_fails ts e); auto. unfold where_sql. cbn [cl_set cl_sql].
    pose proof (injected_not_nil ts e) as NN. set (inj := injected ts e) in *. clearbody inj.
    destruct inj as [|p inj].
    - cbn [map where_run nonempty orb]. cbn [vpred_map vp_preds]. rewrite match_nonempty, nonempty_map.
      destruct (nonempty (vp_preds w)); auto. cbn [when]. f_equal. exact (cond_eq w).
    - cbn [where_run]. cbn [nonempty orb when].
      change (map (fun p => (p, render d p)) (p :: inj)) with ((p, render d p) :: map (fun p => (p, render d p)) inj).
      cbn [app]. f_equal.
      match goal with |- vpred_run true false false (?a :: ?l ++ [?z]) [] = _ => remember z as Z eqn:EZ end.
      assert (HZ : (if is_nil (fst Z) then fail else snd Z (ctx None [])) = render d (NVPred w) (ctx None [])).
      { rewrite EZ. cbn [fst snd is_nil]. rewrite render_vpred. cbn [ctx c_top c_excl vpred_map vp_top vp_or vp_neg vp_preds].
        now rewrite map_map. }
      assert (E : forall r, snd r <> [] -> vpred_run true false false (fst r :: snd r) [] =
        sep_by (B " AND ") (map (fun pr => if is_nil (fst pr) then fail else snd pr (ctx None [])) (fst r :: snd r))).
      { intros [a [|b l]]; cbn [fst snd]; [congruence|]. intros _. cbn [vpred_run negb when].
        destruct a. rewrite !ret_seq', seq_ret'. reflexivity. }
      pose proof (E ((p, render d p), map (fun p => (p, render d p)) inj ++ [Z])) as E'. cbn [fst snd] in E'.
      refine (eq_trans (E' _) _); [now destruct inj|]. f_equal.
      change ((p, render d p) :: map (fun p => (p, render d p)) inj ++ [Z]) with (map (fun p => (p, render d p)) (p :: inj) ++ [Z]).
      change (p :: inj ++ [NVPred w]) with ((p :: inj) ++ [NVPred w]).
      rewrite !map_app, map_map. f_equal; [|cbn [map]; now rewrite HZ].
      apply map_ext_in. intros a I. cbn [fst snd]. now rewrite NN.
  Qed.

  (** ** SELECT *)
  Lemma render_select q c : render d (NSelect q) c = select_run d (select_map mkd q) (c_env c).
  Proof. reflexivity. Qed.

  Lemma when_nonempty_fields kw fs e : fields_clause kw (map mkd fs) e = when (nonempty fs) (emit kw ;; list_sql d e [] fs).
  Proof. unfold fields_clause. rewrite match_nonempty, nonempty_map, list_eq. now destruct fs. Qed.
  Lemma when_cond kw p : pred_clause kw (vpred_map mkd p) = when (nonempty (vp_preds p)) (emit kw ;; cond_sql d p).
  Proof. unfold pred_clause. rewrite match_nonempty, cond_eq. cbn [vpred_map vp_preds]. rewrite nonempty_map. now destruct (nonempty (vp_preds p)). Qed.
  Lemma when_number k n : when (present n) (number_sql d k n) = number_sql d k n.
  Proof. now destruct n. Qed.
  Lemma when_from kw e t :
    match option_map mkd t with
    | None => ret
    | Some t => emit kw ;; k_run t (ctx e []) ;; as_alias d (k_alias t)
    end = when (present t) (emit kw ;; match t with Some t => table_sql d e t | None => ret end).
  Proof. destruct t; auto. Qed.
  Lemma map_jn_table js : map jn_table (map (join_map mkd) js) = map (option_map mkd) (map jn_table js).
  Proof. now rewrite !map_map. Qed.

  Lemma select_run_statement q e : select_ok d q e = true ->
    select_run d (select_map mkd q) e = statement (select_clauses d q e).
  Proof.
    unfold select_ok. rewrite !andb_true_iff. intros [[[[[H1 H2] H3] H4] H5] H6].
    apply negb_true_iff in H6. change (own_env e (sq_env q)) with (pick_env e (sq_env q)) in *.
    unfold select_clauses. change (own_env e (sq_env q)) with (pick_env e (sq_env q)).
    set (e' := pick_env e (sq_env q)) in *.
    rewrite !statement_cons. change (statement []) with ret.
    unfold select_run. cbn [select_map sq_ctes sq_distinct_on sq_distinct sq_fields sq_from sq_joins sq_where sq_group sq_having sq_order sq_limit sq_offset sq_env].
    fold e'. rewrite with_eq by auto. f_equal.
    cbn [cl_set cl_sql when]. f_equal.
    rewrite <- (seq_assoc _ (when (sq_distinct q) _)). f_equal.
    { destruct (sq_distinct_on q) as [|f fs].
      - cbn [map nonempty when]. now rewrite ret_seq'.
      - cbn [nonempty negb orb] in H2. apply andb_true_iff in H2. destruct H2 as [-> HD]. apply negb_true_iff in HD. rewrite HD.
        cbn [map negb nonempty when]. rewrite seq_ret'. f_equal. f_equal. exact (list_eq (f :: fs) e' []). }
    f_equal.
    { rewrite match_nonempty, nonempty_map, H3. apply columns_eq. }
    rewrite when_from. f_equal.
    f_equal.
    { rewrite match_nonempty, nonempty_map. destruct (nonempty (sq_joins q)); auto. cbn [negb orb when] in *.
      destruct (sq_from q); [|discriminate]. cbn [option_map]. now rewrite joins_eq. }
    f_equal.
    { rewrite map_jn_table. change (option_map mkd (sq_from q) :: map (option_map mkd) (map jn_table (sq_joins q)))
        with (map (option_map mkd) (select_tables q)).
      now rewrite hooks_eq, where_eq, H6. }
    rewrite when_nonempty_fields, when_cond, when_nonempty_fields, limit_eq, offset_eq. 
    rewrite !when_number. now rewrite seq_ret'.
  Qed.
  Lemma select_run_ok q e : snd (select_run d (select_map mkd q) e) = SOk -> select_ok d q e = true.
  Proof.
    unfold select_run. cbn [select_map sq_ctes sq_distinct_on sq_distinct sq_fields sq_from sq_joins sq_where sq_group sq_having sq_order sq_limit sq_offset sq_env].
    rewrite seq_ok. intros [H1 H]. rewrite seq_ok in H. destruct H as [_ H].
    rewrite seq_ok in H. destruct H as [H2 H]. rewrite seq_ok in H. destruct H as [H3 H].
    rewrite seq_ok in H. destruct H as [_ H]. rewrite seq_ok in H. destruct H as [H4 H].
    rewrite seq_ok in H. destruct H as [H5 _].
    unfold select_ok. rewrite !andb_true_iff. change (own_env e (sq_env q)) with (pick_env e (sq_env q)).
    repeat split.
    - now apply with_ok.
    - destruct (sq_distinct_on q); auto. cbn [map] in H2. destruct (is_postgres d); [|discriminate].
      destruct (sq_distinct q); [discriminate|]. auto.
    - destruct (sq_fields q); [discriminate|auto].
    - destruct (sq_joins q); auto. cbn [map] in H4. destruct (sq_from q); [auto|discriminate].
    - destruct (sq_joins q) as [|j js]; auto. cbn [map] in H4. destruct (sq_from q); [|discriminate].
      cbn [option_map] in H4. rewrite seq_ok in H4. destruct H4 as [_ H4]. now apply joins_ok.
    - rewrite map_jn_table in H5. change (option_map mkd (sq_from q) :: map (option_map mkd) (map jn_table (sq_joins q)))
        with (map (option_map mkd) (select_tables q)) in H5.
      rewrite hooks_eq in H5. destruct (hook_fails _ _); [discriminate|auto].
  Qed.

  (** ** UPDATE *)
  Lemma render_update q c : render d (NUpdate q) c = update_run d (update_map mkd q) (c_env c).
  Proof. reflexivity. Qed.
  Lemma update_source_eq q : update_source (update_map mkd q) = option_map (map (pair_map mkd)) (update_assigns q).
  Proof.
    unfold update_source, update_assigns. cbn [update_map uq_mapper uq_assigns].
    destruct (uq_mapper q) as [[calls []]|]; reflexivity.
  Qed.
  Lemma gated {A} (l : list A) (b : bool) (m : M) : (negb (nonempty l) || b) = true ->
    match l with [] => ret | _ => if negb b then fail else m end = when (nonempty l) m.
  Proof. destruct l; auto. cbn [nonempty negb orb when]. now intros ->. Qed.
  Lemma gated_ok {A} (l : list A) (b : bool) (m : M) :
    snd (match l with [] => ret | _ => if negb b then fail else m end) = SOk -> (negb (nonempty l) || b) = true.
  Proof. destruct l; auto. cbn [nonempty negb orb when]. destruct b; auto; discriminate. Qed.
  Lemma gated_opt {A} (l : option A) (b : bool) (m : M) : (negb (present l) || b) = true ->
    match l with None => ret | _ => if negb b then fail else m end = when (present l) m.
  Proof. destruct l; auto. cbn [present negb orb when]. now intros ->. Qed.
  Lemma gated_opt_ok {A} (l : option A) (b : bool) (m : M) :
    snd (match l with None => ret | _ => if negb b then fail else m end) = SOk -> (negb (present l) || b) = true.
  Proof. destruct l; auto. cbn [present negb orb when]. destruct b; auto; discriminate. Qed.
  Lemma returning_eq fs e : (negb (nonempty fs) || is_postgres d || is_sqlite d) = true ->
    returning_clause d (map mkd fs) e = when (nonempty fs) (emit (B " RETURNING ") ;; columns_sql d fs).
  Proof.
    intros H. unfold returning_clause. rewrite <- negb_orb. rewrite columns_eq.
    rewrite (gated (map mkd fs)); rewrite nonempty_map; auto. now rewrite orb_assoc.
  Qed.
  Lemma returning_ok fs e : snd (returning_clause d (map mkd fs) e) = SOk ->
    (negb (nonempty fs) || is_postgres d || is_sqlite d) = true.
  Proof.
    unfold returning_clause. rewrite <- negb_orb. intros H. apply gated_ok in H. rewrite nonempty_map in H.
    now rewrite <- orb_assoc.
  Qed.

  Ltac split_ok H H1 := rewrite seq_ok in H; destruct H as [H1 H].

  Lemma update_run_statement q e : update_ok d q e = true ->
    update_run d (update_map mkd q) e = statement (update_clauses d q e).
  Proof.
    unfold update_ok. rewrite !andb_true_iff. intros [[[[[[[[[[H0 H1] H2] H3] H4] H5] H6] H7] H8] H9] H10].
    unfold update_run. rewrite update_source_eq. unfold update_clauses.
    destruct (update_assigns q) as [assigns|]; [|discriminate]. cbn [option_map].
    cbn [update_map uq_env uq_ctes uq_table uq_from uq_joins uq_where uq_order uq_limit uq_offset uq_returning].
    change (own_env e (uq_env q)) with (pick_env e (uq_env q)) in *. set (e' := pick_env e (uq_env q)) in *.
    destruct (uq_table q) as [t|]; [|discriminate]. cbn [option_map].
    rewrite !statement_cons. change (statement []) with ret. cbn [cl_set cl_sql].
    rewrite with_eq by auto. cbn [when]. unfold with_clause_sql at 3 4. cbn [cl_set cl_sql]. f_equal.
    rewrite !seq_assoc. f_equal.
    unfold table_sql at 1. rewrite !seq_assoc. f_equal. f_equal.
    rewrite match_nonempty, nonempty_map, H0, ret_seq'.
    rewrite !assigns_eq. f_equal.
    f_equal.
    { destruct (uq_from q); auto. cbn [option_map present when andb negb] in *. now destruct (is_mysql d). }
    f_equal.
    { rewrite match_nonempty, nonempty_map. destruct (nonempty (uq_joins q)); auto. cbn [when negb orb] in *.
      rewrite joins_eq by auto. destruct (uq_from q); auto. cbn [option_map present orb andb] in *. now rewrite H4. }
    f_equal.
    rewrite map_jn_table.
    change (Some (mkd t) :: option_map mkd (uq_from q) :: map (option_map mkd) (map jn_table (uq_joins q)))
      with (map (option_map mkd) (Some t :: uq_from q :: map jn_table (uq_joins q))).
    rewrite hooks_eq. apply negb_true_iff in H6. rewrite H6, ret_seq'.
    rewrite when_cond. f_equal.
    rewrite <- negb_orb. rewrite (gated (map mkd (uq_order q)) (is_mysql d || is_sqlite d))
      by (now rewrite nonempty_map, orb_assoc).
    rewrite nonempty_map, when_nonempty_fields. f_equal; [now destruct (nonempty (uq_order q))|].
    rewrite (gated_opt (uq_limit q) (is_mysql d || is_sqlite d)) by (now rewrite orb_assoc).
    rewrite limit_eq. f_equal.
    rewrite (gated_opt (uq_offset q) (is_sqlite d)) by auto. rewrite offset_eq. f_equal.
    rewrite returning_eq by auto. now rewrite seq_ret'.
  Qed.
  Lemma update_run_ok q e : snd (update_run d (update_map mkd q) e) = SOk -> update_ok d q e = true.
  Proof.
    unfold update_run. rewrite update_source_eq. unfold update_ok.
    destruct (update_assigns q) as [assigns|]; [|discriminate]. cbn [option_map].
    cbn [update_map uq_env uq_ctes uq_table uq_from uq_joins uq_where uq_order uq_limit uq_offset uq_returning].
    change (own_env e (uq_env q)) with (pick_env e (uq_env q)) in *. set (e' := pick_env e (uq_env q)) in *.
    intros H. split_ok H H1. split_ok H X. destruct (uq_table q) as [t|]; [|discriminate]. cbn [option_map] in H.
    split_ok H X1. split_ok H X2. split_ok H H0. split_ok H X3. split_ok H H3. split_ok H H4. split_ok H X4.
    split_ok H H6. split_ok H X5. split_ok H H7. split_ok H H8. split_ok H H9.
    rewrite map_jn_table in H6.
    change (Some (mkd t) :: option_map mkd (uq_from q) :: map (option_map mkd) (map jn_table (uq_joins q)))
      with (map (option_map mkd) (Some t :: uq_from q :: map jn_table (uq_joins q))) in H6.
    rewrite hooks_eq in H6. rewrite <- negb_orb in H7, H8.
    apply gated_ok in H7. rewrite nonempty_map in H7. apply gated_opt_ok in H8, H9. apply returning_ok in H.
    rewrite !andb_true_iff. repeat split; auto.
    - now destruct assigns.
    - now apply with_ok.
    - destruct (uq_from q); auto. cbn [option_map] in H3. destruct (is_mysql d); [discriminate|auto].
    - destruct (uq_joins q); auto. cbn [map] in H4. destruct (uq_from q); cbn [option_map present nonempty negb orb andb] in *; auto.
      destruct (is_mysql d); [auto|discriminate].
    - destruct (uq_joins q) as [|j js]; auto. set (jj := j :: js) in *.
      assert (E : snd (joins_run d (map (join_map mkd) jj)) = SOk).
      { change (map (join_map mkd) (j :: js)) with (join_map mkd j :: map (join_map mkd) js) in H4.
        cbn [map jj] in H4. unfold jj in H4. cbn [map] in H4.
        destruct (_ && _) in H4; [discriminate|]. now apply seq_ok in H4. }
      now apply joins_ok.
    - destruct (hook_fails _ _); [discriminate|auto].
    - now rewrite <- orb_assoc.
    - now rewrite <- orb_assoc.
  Qed.

  (** ** DELETE *)
  Lemma render_delete q c : render d (NDelete q) c = delete_run d (delete_map mkd q) (c_env c).
  Proof. reflexivity. Qed.
  Lemma gated2 {A} (l : list A) (b b2 : bool) (m : M) : (negb (nonempty l) || (b && negb b2)) = true ->
    match l with [] => ret | _ => if negb b then fail else if b2 then fail else m end = when (nonempty l) m.
  Proof. destruct l; auto. cbn [nonempty negb orb when]. rewrite andb_true_iff. intros [-> H]. now destruct b2. Qed.
  Lemma gated2_ok {A} (l : list A) (b b2 : bool) (m : M) :
    snd (match l with [] => ret | _ => if negb b then fail else if b2 then fail else m end) = SOk ->
    (negb (nonempty l) || (b && negb b2)) = true.
  Proof. destruct l; auto. cbn [nonempty negb orb when]. destruct b, b2; auto; discriminate. Qed.
  Lemma gated2_opt {A} (l : option A) (b b2 : bool) (m : M) : (negb (present l) || (b && negb b2)) = true ->
    match l with None => ret | _ => if negb b then fail else if b2 then fail else m end = when (present l) m.
  Proof. destruct l; auto. cbn [present negb orb when]. rewrite andb_true_iff. intros [-> H]. now destruct b2. Qed.
  Lemma gated2_opt_ok {A} (l : option A) (b b2 : bool) (m : M) :
    snd (match l with None => ret | _ => if negb b then fail else if b2 then fail else m end) = SOk ->
    (negb (present l) || (b && negb b2)) = true.
  Proof. destruct l; auto. cbn [present negb orb when]. destruct b, b2; auto; discriminate. Qed.
  Lemma multi_eq q :
    match option_map mkd (dq_using q) with Some _ => true | None => false end
    || match map (join_map mkd) (dq_joins q) with [] => false | _ => true end = delete_multi q.
  Proof. unfold delete_multi. destruct (dq_using q), (dq_joins q); reflexivity. Qed.
  Lemma tables_all ts : forallb present ts = true ->
    map (fun t : option kid => match t with None => crash | Some t => emit (own_qualifier t) end) (map (option_map mkd) ts)
    = map (fun t => emit (table_qualifier t)) (tables_of ts).
  Proof.
    induction ts as [|[t|] ts IH]; cbn [forallb present andb]; try discriminate; auto.
    intros H. cbn [map option_map tables_of flat_map app]. f_equal. now apply IH.
  Qed.

  Lemma delete_run_statement q e : delete_ok d q e = true ->
    delete_run d (delete_map mkd q) e = statement (delete_clauses d q e).
  Proof.
    unfold delete_ok. rewrite !andb_true_iff. intros [[[[[[[[[H1 H2] H3] H4] H5] H6] H7] H8] H9] H10].
    unfold delete_run, delete_clauses.
    cbn [delete_map dq_env dq_ctes dq_tables dq_using dq_joins dq_where dq_order dq_limit dq_offset dq_returning].
    change (own_env e (dq_env q)) with (pick_env e (dq_env q)) in *. set (e' := pick_env e (dq_env q)) in *.
    rewrite multi_eq.
    rewrite !statement_cons. change (statement []) with ret.
    rewrite with_eq by auto. f_equal. cbn [cl_set cl_sql when]. f_equal.
    rewrite <- (seq_assoc _ (when (negb (present (dq_using q) && is_mysql d)) _)). f_equal.
    { destruct (dq_tables q) as [|t ts]; [discriminate|]. cbn [map].
      replace (match option_map mkd (dq_using q) with Some _ => true | None => false end) with (present (dq_using q))
        by now destruct (dq_using q).
      destruct (present (dq_using q) && is_mysql d); cbn [negb when].
      - rewrite seq_ret'. f_equal.
        change (option_map mkd t :: map (option_map mkd) ts) with (map (option_map mkd) (t :: ts)).
        exact (tables_all (t :: ts) H2).
      - rewrite ret_seq'. destruct t; [reflexivity|discriminate]. }
    f_equal.
    { destruct (dq_using q); auto. cbn [option_map present when andb negb] in *. now destruct (is_sqlite d). }
    f_equal.
    { rewrite match_nonempty, nonempty_map. destruct (nonempty (dq_joins q)); auto. cbn [when negb orb] in *.
      rewrite joins_eq by auto. apply andb_true_iff in H4. destruct H4 as [H4 H4']. apply negb_true_iff in H4'. rewrite H4'.
      destruct (dq_using q); [reflexivity|discriminate]. }
    f_equal.
    { apply negb_true_iff in H6. now rewrite hooks_eq, where_eq, H6. }
    rewrite <- negb_orb.
    rewrite (gated2 (map mkd (dq_order q)) (is_mysql d || is_sqlite d)) by (now rewrite nonempty_map).
    rewrite nonempty_map, when_nonempty_fields. f_equal; [now destruct (nonempty (dq_order q))|].
    rewrite (gated2_opt (dq_limit q) (is_mysql d || is_sqlite d)) by auto.
    rewrite limit_eq. f_equal.
    rewrite (gated_opt (dq_offset q) (is_sqlite d)) by auto. rewrite offset_eq. f_equal.
    rewrite returning_eq by auto. now rewrite seq_ret'.
  Qed.
  Lemma delete_run_ok q e : snd (delete_run d (delete_map mkd q) e) = SOk -> delete_ok d q e = true.
  Proof.
    unfold delete_run, delete_ok.
    cbn [delete_map dq_env dq_ctes dq_tables dq_using dq_joins dq_where dq_order dq_limit dq_offset dq_returning].
    change (own_env e (dq_env q)) with (pick_env e (dq_env q)) in *. set (e' := pick_env e (dq_env q)) in *.
    rewrite multi_eq. intros H. split_ok H H1. split_ok H X. split_ok H H2. split_ok H H3. split_ok H H4.
    split_ok H H6. split_ok H H7. split_ok H H8. split_ok H H9.
    rewrite hooks_eq in H6. rewrite <- negb_orb in H7, H8.
    apply gated2_ok in H7. rewrite nonempty_map in H7. apply gated2_opt_ok in H8. apply gated_opt_ok in H9. apply returning_ok in H.
    rewrite !andb_true_iff. repeat split; auto.
    - now apply with_ok.
    - destruct (dq_tables q) as [|t ts]; [discriminate|]. cbn [map] in H2.
      replace (match option_map mkd (dq_using q) with Some _ => true | None => false end) with (present (dq_using q)) in H2
        by now destruct (dq_using q).
      destruct (present (dq_using q) && is_mysql d).
      + apply sep_by_ok in H2.
        change (Forall (fun m : M => snd m = SOk) (map (fun t : option kid => match t with None => crash | Some t => emit (own_qualifier t) end)
           (map (option_map mkd) (t :: ts)))) in H2.
        apply Forall_map in H2. apply Forall_map in H2. rewrite Forall_forall in H2. rewrite forallb_forall.
        intros o I. specialize (H2 o I). destruct o; [auto|discriminate].
      + destruct t; [auto|discriminate].
    - destruct (dq_using q); auto. cbn [option_map] in H3. destruct (is_sqlite d); [discriminate|auto].
    - destruct (dq_joins q); auto. cbn [map] in H4. destruct (is_sqlite d); [discriminate|].
      destruct (dq_using q); cbn [option_map present nonempty negb orb andb] in *; auto; discriminate.
    - destruct (dq_joins q) as [|j js]; auto. set (jj := j :: js) in *.
      assert (E : snd (joins_run d (map (join_map mkd) jj)) = SOk).
      { unfold jj in H4. cbn [map] in H4. destruct (is_sqlite d); [discriminate|].
        destruct (dq_using q); [|discriminate]. cbn [option_map] in H4. now apply seq_ok in H4. }
      now apply joins_ok.
    - destruct (hook_fails _ _); [discriminate|auto].
  Qed.

  (** ** INSERT *)
  Lemma render_insert q c : render d (NInsert q) c = insert_run d (insert_map mkd q) (c_env c).
  Proof. reflexivity. Qed.
  Lemma true_kid_eq : true_kid = mkd (NPred [] (B "TRUE") [] false).
  Proof. reflexivity. Qed.
  Lemma source_select_eq s :
    (if is_sqlite d && match vp_preds (sq_where (select_map mkd s)) with [] => true | _ => false end
     then where_true (select_map mkd s) else select_map mkd s) = select_map mkd (source_select d s).
  Proof.
    unfold source_select. cbn [select_map sq_where vpred_map vp_preds].
    replace (match map mkd (vp_preds (sq_where s)) with [] => true | _ => false end) with (negb (nonempty (vp_preds (sq_where s))))
      by now destruct (vp_preds (sq_where s)).
    destruct (is_sqlite d && negb (nonempty (vp_preds (sq_where s)))); auto.
  Qed.
  Lemma rows_eq rows : rows_run (map (map k_run) (map (map mkd) rows)) =
    sep_by (B ", ") (map (fun r => emit (B "(") ;; list_sql d None [] r ;; emit (B ")")) rows).
  Proof.
    unfold rows_run, row_run, list_sql. rewrite !map_map. f_equal. apply map_ext. intros r. now rewrite !map_map.
  Qed.

  Lemma conflict_eq q e t : iq_into q = Some t ->
    (is_empty (iq_constraint q) || is_postgres d || negb (is_sqlite d)) = true ->
    forall rest,
    (if is_sqlite d || is_postgres d then conflict_run d (insert_map mkd q) e [own_qualifier (mkd t)]
     else if is_mysql d then
       match map (pair_map mkd) (iq_resolution q) with
       | [] => ret
       | res => emit (B " ON DUPLICATE KEY UPDATE ") ;; assigns_run res [own_qualifier (mkd t)]
       end
     else ret) ;; statement rest =
    let x := [table_qualifier t] in
    let update := nonempty (iq_resolution q) && negb (iq_nothing q) in
    statement ([
        mk_clause (on_conflict d q) (emit (B " ON CONFLICT"));
        mk_clause (on_conflict d q && negb (is_empty (iq_constraint q)))
          (emit (B " ON CONSTRAINT " ++ iq_constraint q));
        mk_clause (on_conflict d q && is_empty (iq_constraint q) && nonempty (iq_cfields q))
          (emit (B " (") ;; list_sql d e x (iq_cfields q) ;; emit (B ")"));
        mk_clause (on_conflict d q && is_empty (iq_constraint q) && nonempty (iq_cfields q) && present (iq_cpred q))
          (emit (B " WHERE ") ;;
           match iq_cpred q with
           | Some p => render d p (mk_ctx (if is_vpred p then Some true else None) [] e x)
           | None => ret
           end);
        mk_clause (on_conflict d q && negb update) (emit (B " DO NOTHING"));
        mk_clause (on_conflict d q && update) (emit (B " DO UPDATE SET ") ;; assigns_sql d x (iq_resolution q));
        mk_clause (on_conflict d q && update && nonempty (vp_preds (iq_rpred q)))
          (emit (B " WHERE ") ;; cond_sql d (iq_rpred q));
        mk_clause (is_mysql d && nonempty (iq_resolution q))
          (emit (B " ON DUPLICATE KEY UPDATE ") ;; assigns_sql d x (iq_resolution q)) ] ++ rest).
  Proof.
    intros HI HC rest. cbv zeta. change (own_qualifier (mkd t)) with (table_qualifier t). set (x := [table_qualifier t]).
    set (update := nonempty (iq_resolution q) && negb (iq_nothing q)).
    cbn [app]. rewrite !statement_cons. cbn [cl_set cl_sql]. unfold on_conflict.
    destruct (is_sqlite d || is_postgres d) eqn:ED.
    2: { cbn [andb when]. rewrite !ret_seq'. f_equal. destruct (is_mysql d); auto. cbn [andb].
         destruct (iq_resolution q) as [|r res]; auto. cbn [nonempty when]. rewrite <- assigns_eq. reflexivity. }
    assert (EM : is_mysql d = false) by (destruct d; try discriminate; reflexivity). rewrite EM. cbn [andb].
    cbn [when]. rewrite ret_seq'.
    unfold conflict_run. cbn [insert_map iq_constraint iq_cfields iq_nothing iq_cpred iq_resolution iq_rpred].
    replace (match map mkd (iq_cfields q) with [] => true | _ => false end) with (negb (nonempty (iq_cfields q)))
      by now destruct (iq_cfields q).
    replace (is_empty (iq_constraint q) && negb (nonempty (iq_cfields q)) && negb (iq_nothing q))
      with (negb (negb (is_empty (iq_constraint q)) || nonempty (iq_cfields q) || iq_nothing q))
      by now destruct (is_empty (iq_constraint q)), (nonempty (iq_cfields q)), (iq_nothing q).
    destruct (negb (is_empty (iq_constraint q)) || nonempty (iq_cfields q) || iq_nothing q) eqn:EC;
      cbn [negb andb when]; [|now rewrite !ret_seq'].
    rewrite !seq_assoc. f_equal.
    assert (EA : forall a b c k1 k2, a = b -> k1 = k2 -> (a ;; c) ;; k1 = b ;; c ;; k2)
      by (intros a b c k1 k2 -> ->; apply seq_assoc).
    assert (HR : forall k,
      match map (pair_map mkd) (iq_resolution q) with
      | [] => emit (B " DO NOTHING")
      | p :: l =>
          if iq_nothing q then emit (B " DO NOTHING")
          else emit (B " DO UPDATE SET ") ;; assigns_run (p :: l) x ;; pred_clause (B " WHERE ") (vpred_map mkd (iq_rpred q))
      end ;; k =
      when (negb update) (emit (B " DO NOTHING")) ;;
      when update (emit (B " DO UPDATE SET ") ;; assigns_sql d x (iq_resolution q)) ;;
      when (update && nonempty (vp_preds (iq_rpred q))) (emit (B " WHERE ") ;; cond_sql d (iq_rpred q)) ;; k).
    { intros k. unfold update.
      replace (match map (pair_map mkd) (iq_resolution q) with
      | [] => emit (B " DO NOTHING")
      | p :: l =>
          if iq_nothing q then emit (B " DO NOTHING")
          else emit (B " DO UPDATE SET ") ;; assigns_run (p :: l) x ;; pred_clause (B " WHERE ") (vpred_map mkd (iq_rpred q))
      end) with (if nonempty (iq_resolution q) && negb (iq_nothing q) then
          emit (B " DO UPDATE SET ") ;; assigns_run (map (pair_map mkd) (iq_resolution q)) x ;; pred_clause (B " WHERE ") (vpred_map mkd (iq_rpred q)) else emit (B " DO NOTHING"))
        by (destruct (iq_resolution q), (iq_nothing q); reflexivity).
      destruct (nonempty (iq_resolution q) && negb (iq_nothing q)); cbn [negb when andb].
      - rewrite ret_seq', assigns_eq, when_cond, !seq_assoc. reflexivity.
      - now rewrite !ret_seq'. }
    rewrite HR.
    destruct (is_empty (iq_constraint q)) eqn:EE; cbn [negb andb when].
    - rewrite match_nonempty, nonempty_map. destruct (nonempty (iq_cfields q)); cbn [andb when]; rewrite ?ret_seq'; auto.
      rewrite list_eq, !seq_assoc. f_equal. f_equal. f_equal. f_equal.
      destruct (iq_cpred q) as [p|]; reflexivity.
    - assert (EP : is_postgres d = true).
      { cbn [orb] in HC. destruct (is_postgres d); auto. cbn [orb] in *. rewrite orb_false_r in ED. rewrite ED in HC. discriminate. }
      rewrite EP. cbn [negb]. f_equal. now rewrite !ret_seq'.
  Qed.

  Ltac ins_proj q :=
    change (iq_env (insert_map mkd q)) with (iq_env q) in *;
    change (iq_ctes (insert_map mkd q)) with (map (cte_map mkd) (iq_ctes q)) in *;
    change (iq_ignore (insert_map mkd q)) with (iq_ignore q) in *;
    change (iq_into (insert_map mkd q)) with (option_map mkd (iq_into q)) in *;
    change (iq_columns (insert_map mkd q)) with (map mkd (iq_columns q)) in *;
    change (iq_rows (insert_map mkd q)) with (map (map mkd) (iq_rows q)) in *;
    change (iq_rowalias (insert_map mkd q)) with (iq_rowalias q) in *;
    change (iq_colaliases (insert_map mkd q)) with (iq_colaliases q) in *;
    change (iq_select (insert_map mkd q)) with (option_map (select_map mkd) (iq_select q)) in *;
    change (iq_resolution (insert_map mkd q)) with (map (pair_map mkd) (iq_resolution q)) in *;
    change (iq_returning (insert_map mkd q)) with (map mkd (iq_returning q)) in *.
  Lemma insert_run_statement q e : iq_mapper q = None -> insert_ok d q e = true ->
    insert_run d (insert_map mkd q) e = statement (insert_clauses d q e).
  Proof.
    intros HM. unfold insert_ok. rewrite !andb_true_iff. intros [[[[[[H1 H2] H3] H4] H5] H6] H7].
    unfold insert_run, insert_clauses, insert_source. change (iq_mapper (insert_map mkd q)) with (option_map (mapper_map mkd) (iq_mapper q)). rewrite HM. cbn [option_map].
    ins_proj q.
    change (own_env e (iq_env q)) with (pick_env e (iq_env q)) in *. set (e' := pick_env e (iq_env q)) in *.
    destruct (iq_into q) as [t|] eqn:EI; [|discriminate]. cbn [option_map].
    assert (HN : returning_clause d (map mkd (iq_returning q)) e' = statement
       [mk_clause (nonempty (iq_returning q)) (emit (B " RETURNING ") ;; columns_sql d (iq_returning q))]).
    { rewrite statement_cons. cbn [cl_set cl_sql]. change (statement []) with ret. rewrite seq_ret'. now apply returning_eq. }
    pose proof (conflict_eq q e' t EI H6) as HC. cbn [app] in HC. cbv zeta in HC.
    rewrite (statement_cons (with_clause_sql d (iq_ctes q))), statement_cons, statement_cons, statement_cons, statement_cons, statement_cons.
    rewrite HN. cbn zeta. rewrite with_eq by auto. f_equal. cbn [cl_set cl_sql when]. rewrite !seq_assoc. f_equal.
    { destruct (iq_ignore q); auto. cbn [negb orb] in H2. now rewrite H2. }
    unfold table_sql. rewrite !seq_assoc. f_equal. f_equal.
    { unfold as_sql. change (k_alias (mkd t)) with (get_alias t). destruct (is_empty (get_alias t)); auto. cbn [orb] in H3.
      cbn [negb when]. now destruct (is_mysql d). }
    f_equal.
    { rewrite match_nonempty, nonempty_map, list_eq. change (own_qualifier (mkd t)) with (table_qualifier t).
      now destruct (nonempty (iq_columns q)). }
    assert (HS : forall k,
      match map (map k_run) (map (map mkd) (iq_rows q)) with
      | [] =>
          match option_map (select_map mkd) (iq_select q) with
          | Some s => emit (B " ") ;; select_run d
              (if is_sqlite d && match vp_preds (sq_where s) with [] => true | _ => false end then where_true s else s) e'
          | None => fail
          end
      | _ :: _ => emit (B " VALUES ") ;; rows_run (map (map k_run) (map (map mkd) (iq_rows q))) ;;
          (if is_empty (iq_rowalias q) then ret
           else if negb (is_mysql d) then fail
           else emit (B " AS " ++ iq_rowalias q) ;;
                match iq_colaliases q with [] => ret | l => emit (B " (" ++ join (B ", ") l ++ B ")") end)
      end ;; k =
      when (nonempty (iq_rows q)) (emit (B " VALUES ") ;;
           sep_by (B ", ") (map (fun r => emit (B "(") ;; list_sql d None [] r ;; emit (B ")")) (iq_rows q))) ;;
      when (nonempty (iq_rows q) && negb (is_empty (iq_rowalias q)))
        (emit (B " AS " ++ iq_rowalias q) ;;
         when (nonempty (iq_colaliases q)) (emit (B " (" ++ join (B ", ") (iq_colaliases q) ++ B ")"))) ;;
      when (negb (nonempty (iq_rows q)))
        (emit (B " ") ;; match iq_select q with
                         | Some s => statement (select_clauses d (source_select d s) e')
                         | None => ret
                         end) ;; k).
    { intros k. destruct (nonempty (iq_rows q)) eqn:ER; cbn [negb andb orb when] in *.
      - replace (match map (map k_run) (map (map mkd) (iq_rows q)) with
          | [] =>
              match option_map (select_map mkd) (iq_select q) with
              | Some s => emit (B " ") ;; select_run d
                  (if is_sqlite d && match vp_preds (sq_where s) with [] => true | _ => false end then where_true s else s) e'
              | None => fail
              end
          | _ :: _ => emit (B " VALUES ") ;; rows_run (map (map k_run) (map (map mkd) (iq_rows q))) ;;
              (if is_empty (iq_rowalias q) then ret
               else if negb (is_mysql d) then fail
               else emit (B " AS " ++ iq_rowalias q) ;;
                    match iq_colaliases q with [] => ret | l => emit (B " (" ++ join (B ", ") l ++ B ")") end)
          end) with (emit (B " VALUES ") ;; rows_run (map (map k_run) (map (map mkd) (iq_rows q))) ;;
              (if is_empty (iq_rowalias q) then ret
               else if negb (is_mysql d) then fail
               else emit (B " AS " ++ iq_rowalias q) ;;
                    match iq_colaliases q with [] => ret | l => emit (B " (" ++ join (B ", ") l ++ B ")") end))
          by (destruct (iq_rows q); [discriminate|reflexivity]).
        rewrite ret_seq', rows_eq, !seq_assoc. f_equal. f_equal. f_equal.
        destruct (is_empty (iq_rowalias q)); auto. cbn [orb negb when] in *. rewrite H5. cbn [negb]. f_equal.
        now destruct (iq_colaliases q).
      - destruct (iq_rows q); [|discriminate]. cbn [map]. rewrite !ret_seq'.
        destruct (iq_select q) as [s|]; [|discriminate]. cbn [option_map].
        rewrite source_select_eq, select_run_statement by auto. reflexivity. }
    match goal with |- ?a ;; ?k = _ => transitivity (a ;; k); [reflexivity|] end.
    rewrite HS. clear HS. f_equal. f_equal. f_equal. exact (HC _).
  Qed.
  Lemma insert_run_ok q e : iq_mapper q = None -> snd (insert_run d (insert_map mkd q) e) = SOk -> insert_ok d q e = true.
  Proof.
    intros HM. unfold insert_ok, insert_run, insert_source. change (iq_mapper (insert_map mkd q)) with (option_map (mapper_map mkd) (iq_mapper q)). rewrite HM. cbn [option_map].
    ins_proj q.
    change (own_env e (iq_env q)) with (pick_env e (iq_env q)) in *. set (e' := pick_env e (iq_env q)) in *.
    intros H. split_ok H H1. split_ok H H2. destruct (iq_into q) as [t|]; [|discriminate]. cbn [option_map] in H.
    split_ok H X. split_ok H H3. split_ok H X1. split_ok H H4. split_ok H H5. apply returning_ok in H.
    change (k_alias (mkd t)) with (get_alias t) in H3.
    rewrite !andb_true_iff. repeat split; auto.
    - now apply with_ok.
    - destruct (iq_ignore q); auto. cbn [negb orb]. destruct (is_mysql d); [auto|discriminate].
    - destruct (is_empty (get_alias t)); auto. destruct (is_mysql d); [discriminate|auto].
    - destruct (iq_rows q); auto. cbn [map] in H4. destruct (iq_select q) as [s|]; [|discriminate].
      cbn [option_map] in H4. rewrite source_select_eq in H4. apply seq_ok in H4. now apply select_run_ok.
    - destruct (iq_rows q); [now rewrite orb_true_r|]. cbn [map] in H4. rewrite !seq_ok in H4. destruct H4 as (_ & _ & H4).
      destruct (is_empty (iq_rowalias q)); auto. destruct (is_mysql d); [auto|discriminate].
    - destruct (is_empty (iq_constraint q)) eqn:EE; auto. cbn [orb].
      destruct (is_postgres d) eqn:EP; auto. destruct (is_sqlite d) eqn:ES; auto. cbn [orb] in H5.
      unfold conflict_run in H5. cbn [insert_map iq_constraint] in H5. rewrite EE in H5. cbn [andb negb] in H5.
      rewrite EP in H5. cbn [negb] in H5. rewrite !seq_ok in H5. destruct H5 as (_ & H5 & _). discriminate.
  Qed.
End Facts.
