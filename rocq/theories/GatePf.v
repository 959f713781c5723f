(** * GatePf: dialect gates, joins and conflict clauses *)
From Coq Require Import Lia.
From Verif Require Import GoBase GoBaseFacts QuoteModel SprintModel TokenModel EffectModel RenderModel BuildModel
  SpecBool SpecClauses BoolModel RenderRel BoolFacts FormatFacts PredPf ClauseFacts ClausePf.
Local Open Scope m_scope.

Lemma statement_ok cs : snd (statement cs) = SOk <-> Forall (fun cl => cl_set cl = true -> snd (cl_sql cl) = SOk) cs.
Proof.
  induction cs as [|c cs IH].
  - split; auto.
  - rewrite statement_cons, seq_ok, when_ok, IH. split; [intros []; auto|]. inversion 1; auto.
Qed.
Lemma iff_from (m s : M) (ok : bool) (P : Prop) :
  (snd m = SOk -> ok = true) -> (ok = true -> m = s) -> (snd s = SOk <-> P) ->
  (ok = true -> m = s) /\ (snd m = SOk <-> ok = true /\ P).
Proof.
  intros H1 H2 H3. split; auto. split.
  - intros H. pose proof (H1 H) as E. split; auto. apply H3. now rewrite <- (H2 E).
  - intros [E HP]. rewrite (H2 E). now apply H3.
Qed.
Lemma select_is_its_clauses_pf : forall (d : dialect) (q : select_ node) (c : rctx),
  (select_ok d q (c_env c) = true -> render d (NSelect q) c = statement (select_clauses d q (c_env c))) /\
  (snd (render d (NSelect q) c) = SOk <->
   select_ok d q (c_env c) = true /\
   Forall (fun cl => cl_set cl = true -> snd (cl_sql cl) = SOk) (select_clauses d q (c_env c))).
Proof.
  intros. rewrite render_select. apply iff_from; [apply select_run_ok|apply select_run_statement|apply statement_ok].
Qed.
Lemma update_is_its_clauses_pf : forall (d : dialect) (q : update_ node) (c : rctx),
  (update_ok d q (c_env c) = true -> render d (NUpdate q) c = statement (update_clauses d q (c_env c))) /\
  (snd (render d (NUpdate q) c) = SOk <->
   update_ok d q (c_env c) = true /\
   Forall (fun cl => cl_set cl = true -> snd (cl_sql cl) = SOk) (update_clauses d q (c_env c))).
Proof.
  intros. rewrite render_update. apply iff_from; [apply update_run_ok|apply update_run_statement|apply statement_ok].
Qed.
Lemma delete_is_its_clauses_pf : forall (d : dialect) (q : delete_ node) (c : rctx),
  (delete_ok d q (c_env c) = true -> render d (NDelete q) c = statement (delete_clauses d q (c_env c))) /\
  (snd (render d (NDelete q) c) = SOk <->
   delete_ok d q (c_env c) = true /\
   Forall (fun cl => cl_set cl = true -> snd (cl_sql cl) = SOk) (delete_clauses d q (c_env c))).
Proof.
  intros. rewrite render_delete. apply iff_from; [apply delete_run_ok|apply delete_run_statement|apply statement_ok].
Qed.
Lemma insert_is_its_clauses_pf : forall (d : dialect) (q : insert_ node) (c : rctx),
  iq_mapper q = None ->
  (insert_ok d q (c_env c) = true -> render d (NInsert q) c = statement (insert_clauses d q (c_env c))) /\
  (snd (render d (NInsert q) c) = SOk <->
   insert_ok d q (c_env c) = true /\
   Forall (fun cl => cl_set cl = true -> snd (cl_sql cl) = SOk) (insert_clauses d q (c_env c))).
Proof.
  intros. rewrite render_insert. apply iff_from; [now apply insert_run_ok|now apply insert_run_statement|apply statement_ok].
Qed.

Lemma nonempty_t {A} (l : list A) : l <> [] -> nonempty l = true.
Proof. now destruct l. Qed.
Lemma present_t {A} (l : option A) : l <> None -> present l = true.
Proof. now destruct l. Qed.
Lemma is_postgres_f d : d <> DPostgres -> is_postgres d = false.
Proof. destruct d; congruence || auto. Qed.
Lemma is_mysql_f d : d <> DMySQL -> is_mysql d = false.
Proof. destruct d; congruence || auto. Qed.
Lemma is_sqlite_f d : d <> DSQLite -> is_sqlite d = false.
Proof. destruct d; congruence || auto. Qed.
Lemma not_empty_t (b : bytes) : b <> [] -> is_empty b = false.
Proof. now destruct b. Qed.

Lemma hook_error_tables ts e t : In (Some t) ts -> table_hook t e = HErr -> hook_fails ts e = true.
Proof.
  intros I H. apply (hook_error_pf ts e t); auto. unfold tables_of. apply in_flat_map. exists (Some t). split; auto. now left.
Qed.

Ltac bools :=
  repeat match goal with
  | H : ?l <> [] |- _ => match type of l with
      | bytes => rewrite (not_empty_t l H) in *; clear H
      | list ascii => rewrite (not_empty_t l H) in *; clear H
      | _ => rewrite (nonempty_t l H) in *; clear H end
  | H : ?l <> None |- _ => rewrite (present_t l H) in *; clear H
  | H : ?d <> DPostgres |- _ => rewrite (is_postgres_f d H) in *; clear H
  | H : ?d <> DMySQL |- _ => rewrite (is_mysql_f d H) in *; clear H
  | H : ?d <> DSQLite |- _ => rewrite (is_sqlite_f d H) in *; clear H
  end.

Lemma select_unsupported_pf : forall (d : dialect) (q : select_ node) (c : rctx),
  sq_distinct_on q <> [] /\ (d <> DPostgres \/ sq_distinct q = true) \/
  sq_fields q = [] \/
  sq_joins q <> [] /\ sq_from q = None \/
  (exists j, In j (sq_joins q) /\ join_ok d j = false) \/
  (exists t, In (Some t) (select_tables q) /\ table_hook t (own_env (c_env c) (sq_env q)) = HErr) ->
  snd (render d (NSelect q) c) <> SOk.
Proof.
  intros d q c H S. apply select_is_its_clauses_pf in S. destruct S as [S _].
  unfold select_ok in S. rewrite !andb_true_iff in S. destruct S as [[[[[S1 S2] S3] S4] S5] S6].
  destruct H as [[H1 H2]|[H|[[H1 H2]|[(j & I & HJ)|(t & I & HT)]]]].
  - bools. destruct H2 as [H2|H2].
    + bools. discriminate.
    + rewrite H2, andb_false_r in S2. discriminate.
  - rewrite H in S3. discriminate.
  - bools. rewrite H2 in S4. discriminate.
  - rewrite forallb_forall in S5. specialize (S5 j I). congruence.
  - rewrite (hook_error_tables _ _ _ I HT) in S6. discriminate.
Qed.
Lemma update_unsupported_pf : forall (d : dialect) (q : update_ node) (c : rctx),
  uq_from q <> None /\ d = DMySQL \/
  uq_joins q <> [] /\ uq_from q = None /\ d <> DMySQL \/
  uq_order q <> [] /\ d <> DMySQL /\ d <> DSQLite \/
  uq_limit q <> None /\ d <> DMySQL /\ d <> DSQLite \/
  uq_offset q <> None /\ d <> DSQLite \/
  uq_returning q <> [] /\ d <> DPostgres /\ d <> DSQLite \/
  uq_table q = None \/
  (uq_mapper q = None /\ uq_assigns q = []) ->
  snd (render d (NUpdate q) c) <> SOk.
Proof.
  intros d q c H S. apply update_is_its_clauses_pf in S. destruct S as [S _].
  unfold update_ok in S. rewrite !andb_true_iff in S. destruct S as [[[[[[[[[[S0 S1] S2] S3] S4] S5] S6] S7] S8] S9] S10].
  destruct H as [(H1 & H2)|[(H1 & H2 & H3)|[(H1 & H2 & H3)|[(H1 & H2 & H3)|[(H1 & H2)|[(H1 & H2 & H3)|[H1|(H1 & H2)]]]]]]]; bools;
    try discriminate.
  - subst. discriminate.
  - rewrite H2 in S4. discriminate.
  - rewrite H1 in S2. discriminate.
  - unfold update_assigns in S0. rewrite H1, H2 in S0. discriminate.
Qed.
Lemma delete_unsupported_pf : forall (d : dialect) (q : delete_ node) (c : rctx),
  dq_tables q = [] \/
  dq_using q <> None /\ d = DSQLite \/
  dq_joins q <> [] /\ (d = DSQLite \/ dq_using q = None) \/
  dq_order q <> [] /\ (d <> DMySQL /\ d <> DSQLite \/ dq_using q <> None) \/
  dq_limit q <> None /\ (d <> DMySQL /\ d <> DSQLite \/ dq_using q <> None) \/
  dq_offset q <> None /\ d <> DSQLite \/
  dq_returning q <> [] /\ d <> DPostgres /\ d <> DSQLite \/
  (exists t, In (Some t) (dq_tables q) /\ table_hook t (own_env (c_env c) (dq_env q)) = HErr) ->
  snd (render d (NDelete q) c) <> SOk.
Proof.
  intros d q c H S. apply delete_is_its_clauses_pf in S. destruct S as [S _].
  unfold delete_ok, delete_multi in S. rewrite !andb_true_iff in S. destruct S as [[[[[[[[[S1 S2] S3] S4] S5] S6] S7] S8] S9] S10].
  destruct H as [H|[(H1 & H2)|[(H1 & [H2|H2])|[(H1 & [(H2 & H3)|H2])|[(H1 & [(H2 & H3)|H2])|[(H1 & H2)|[(H1 & H2 & H3)|(t & I & HT)]]]]]]]; bools;
    try discriminate.
  - rewrite H in S2. discriminate.
  - subst. discriminate.
  - subst. rewrite andb_false_r in S4. discriminate.
  - rewrite H2 in S4. discriminate.
  - rewrite andb_false_r in S7. discriminate.
  - rewrite andb_false_r in S8. discriminate.
  - rewrite (hook_error_tables _ _ _ I HT) in S6. discriminate.
Qed.
Lemma insert_unsupported_pf : forall (d : dialect) (q : insert_ node) (c : rctx),
  iq_ignore q = true /\ d <> DMySQL \/
  (exists t, iq_into q = Some t /\ get_alias t <> [] /\ d = DMySQL) \/
  iq_mapper q = None /\ iq_rows q <> [] /\ iq_rowalias q <> [] /\ d <> DMySQL \/
  iq_constraint q <> [] /\ d = DSQLite \/
  iq_returning q <> [] /\ d <> DPostgres /\ d <> DSQLite \/
  iq_into q = None \/
  iq_mapper q = None /\ iq_rows q = [] /\ iq_select q = None ->
  snd (render d (NInsert q) c) <> SOk.
Proof.
  intros d q c H S.
  assert (A : iq_mapper q = None -> insert_ok d q (c_env c) = true).
  { intros E. now apply insert_is_its_clauses_pf in S. }
  rewrite render_insert in S. unfold insert_run in S. destruct (insert_source _) as [[columns rows]|]; [|discriminate].
  rewrite seq_ok in S. destruct S as [_ S]. rewrite seq_ok in S. destruct S as [S1 S].
  change (iq_ignore (insert_map (mk d) q)) with (iq_ignore q) in *.
  change (iq_into (insert_map (mk d) q)) with (option_map (mk d) (iq_into q)) in *.
  change (iq_returning (insert_map (mk d) q)) with (map (mk d) (iq_returning q)) in *.
  change (iq_constraint (insert_map (mk d) q)) with (iq_constraint q) in *.
  destruct (iq_into q) as [t|] eqn:EI; [|discriminate]. cbn [option_map] in S.
  rewrite seq_ok in S. destruct S as [_ S]. rewrite seq_ok in S. destruct S as [S2 S].
  rewrite seq_ok in S. destruct S as [_ S]. rewrite seq_ok in S. destruct S as [S3 S].
  rewrite seq_ok in S. destruct S as [S4 S5]. apply returning_ok in S5.
  change (k_alias (mk d t)) with (get_alias t) in S2.
  destruct H as [(H1 & H2)|[(t' & H1 & H2 & H3)|[(H1 & H2 & H3 & H4)|[(H1 & H2)|[(H1 & H2 & H3)|[H|(H1 & H2 & H3)]]]]]].
  - bools. rewrite H1 in S1. discriminate.
  - injection H1 as <-. subst. rewrite (not_empty_t _ H2) in S2. discriminate.
  - specialize (A H1). unfold insert_ok in A. rewrite !andb_true_iff in A. destruct A as [[[[[[A1 A2] A3] A4] A5] A6] A7].
    bools. discriminate.
  - subst. change (is_sqlite DSQLite || is_postgres DSQLite) with true in S4. cbn iota in S4.
    unfold conflict_run in S4. cbn [insert_map iq_constraint] in S4. rewrite (not_empty_t _ H1) in S4. cbn [andb negb] in S4.
    rewrite !seq_ok in S4. destruct S4 as (_ & S4 & _). discriminate.
  - bools. discriminate.
  - discriminate.
  - specialize (A H1). unfold insert_ok in A. rewrite !andb_true_iff in A. destruct A as [[[[[[A1 A2] A3] A4] A5] A6] A7].
    rewrite H2, H3 in A4. discriminate.
Qed.
Lemma named_arg_unsupported_pf : forall (d : dialect) (name : bytes) (v : gval) (c : rctx),
  d = DPostgres \/ d = DMySQL -> snd (render d (NRaw (GNamedArg name v)) c) <> SOk.
Proof. intros d name v c [->| ->]; discriminate. Qed.
Lemma hook_error_aborts_pf : forall (d : dialect) (c : rctx),
  (forall q t, In (Some t) (select_tables q) -> table_hook t (own_env (c_env c) (sq_env q)) = HErr ->
     snd (render d (NSelect q) c) <> SOk) /\
  (forall q t, In (Some t) (dq_tables q) -> table_hook t (own_env (c_env c) (dq_env q)) = HErr ->
     snd (render d (NDelete q) c) <> SOk) /\
  (forall q t, In (Some t) (uq_table q :: uq_from q :: map jn_table (uq_joins q)) ->
     table_hook t (own_env (c_env c) (uq_env q)) = HErr -> snd (render d (NUpdate q) c) <> SOk).
Proof.
  intros d c. repeat split; intros q t I HT.
  - apply select_unsupported_pf. eauto 9.
  - apply delete_unsupported_pf. eauto 12.
  - intros S. apply update_is_its_clauses_pf in S. destruct S as [S _].
    unfold update_ok in S. rewrite !andb_true_iff in S. destruct S as [[[[[[[[[[S0 S1] S2] S3] S4] S5] S6] S7] S8] S9] S10].
    rewrite (hook_error_tables _ _ _ I HT) in S6. discriminate.
Qed.

Lemma existsb_beqb x l : existsb (beqb x) l = true <-> In x l.
Proof.
  rewrite existsb_exists. split.
  - intros (y & I & E). apply beqb_eq in E. now subst.
  - intros I. exists x. split; auto. now apply beqb_eq.
Qed.
Lemma join_is_well_formed_pf : forall (d : dialect) (j : join_ node) (c : rctx),
  snd (render d (NJoin j) c) = SOk ->
  exists t, jn_table j = Some t /\
    render d (NJoin j) c =
      emit (join_type j ++ B " ") ;; render d t (ctx None []) ;;
      when (negb (is_empty (get_alias t))) (emit (B " AS ") ;; emit (quote_identifier d (get_alias t))) ;;
      when (nonempty (vp_preds (jn_on j))) (emit (B " ON ") ;; cond_sql d (jn_on j)) /\
    (vp_preds (jn_on j) = [] -> ~ In (join_type j) [B "JOIN"; B "RIGHT JOIN"; B "FULL JOIN"]) /\
    (d = DSQLite -> ~ In (join_type j) [B "RIGHT JOIN"; B "FULL JOIN"]).
Proof.
  intros d j c S. change (render d (NJoin j) c) with (join_run d (join_map (mk d) j)) in *.
  pose proof (join_run_ok d j S) as OK. pose proof (join_run_eq d j) as E. rewrite OK in E.
  rewrite E. unfold join_ok in OK. rewrite !andb_true_iff in OK. destruct OK as [[O1 O2] O3].
  unfold join_sql. destruct (jn_table j) as [t|]; [|discriminate]. exists t. repeat split; auto.
  - intros HP HI. apply existsb_beqb in HI. unfold needs_on in O2. rewrite HP, HI in O2. discriminate.
  - intros -> HI. apply existsb_beqb in HI. unfold not_in_sqlite in O3. rewrite HI in O3. discriminate.
Qed.

Lemma conflict_shape (oc my ce cf cp no res rp : bool) (m0 m1 m2 m3 m4 m5 m6 m7 : M) :
  (oc = true -> my = false) ->
  (when oc m0 ;; when (oc && negb ce) m1 ;; when (oc && ce && cf) m2 ;; when (oc && ce && cf && cp) m3 ;;
   when (oc && negb (res && negb no)) m4 ;; when (oc && (res && negb no)) m5 ;;
   when (oc && (res && negb no) && rp) m6 ;; when (my && res) m7 ;; ret) =
  (if oc then m0 ;; (if negb ce then m1 else if cf then m2 ;; when cp m3 else ret) ;;
             (if no || negb res then m4 else m5 ;; when rp m6)
   else when (my && res) m7).
Proof.
  intros H. destruct oc; [rewrite (H eq_refl)|]; destruct ce, cf, cp, no, res, rp; try destruct my; cbn [andb negb orb when];
    rewrite ?seq_assoc, ?ret_seq', ?seq_ret'; reflexivity.
Qed.

Lemma insert_conflict_clauses_pf : forall (d : dialect) (q : insert_ node) (c : rctx) (t : node),
  iq_mapper q = None -> iq_into q = Some t -> snd (render d (NInsert q) c) = SOk ->
  let l := insert_clauses d q (c_env c) in
  (iq_rows q <> [] \/ exists s, iq_select q = Some s) /\
  render d (NInsert q) c =
    statement (firstn 6 l) ;; conflict_sql d q (own_env (c_env c) (iq_env q)) t ;; statement (skipn 14 l).
Proof.
  intros d q c t HM HI S l.
  destruct (insert_is_its_clauses_pf d q c HM) as [E IFF]. apply IFF in S. destruct S as [OK _].
  rewrite (E OK). clear E IFF. unfold insert_ok in OK. rewrite !andb_true_iff in OK. destruct OK as [[[[[[A1 A2] A3] A4] A5] A6] A7].
  split.
  { destruct (iq_rows q); [|left; discriminate]. cbn [nonempty orb] in A4. right. destruct (iq_select q); [eauto|discriminate]. }
  change (insert_clauses d q (c_env c)) with l.
  assert (C : statement (firstn 8 (skipn 6 l)) = conflict_sql d q (own_env (c_env c) (iq_env q)) t).
  { unfold l, insert_clauses. rewrite HI. cbn [skipn firstn]. rewrite !statement_cons. change (statement []) with ret.
    cbn [cl_set cl_sql]. unfold on_conflict.
    etransitivity; [apply conflict_shape|].
    - destruct d; reflexivity || discriminate.
    - unfold conflict_sql, conflict_target.
      destruct d; cbn [is_sqlite is_postgres is_mysql orb andb];
        destruct (negb (is_empty (iq_constraint q))), (nonempty (iq_cfields q)), (iq_nothing q), (nonempty (iq_resolution q)), (iq_cpred q);
        cbn [negb orb andb when present]; rewrite ?seq_assoc, ?seq_ret', ?ret_seq'; try reflexivity. }
  rewrite <- C. clear C.
  transitivity (statement (firstn 6 l ++ skipn 6 l)); [now rewrite firstn_skipn|].
  rewrite statement_app. f_equal. transitivity (statement (firstn 8 (skipn 6 l) ++ skipn 8 (skipn 6 l))); [now rewrite firstn_skipn|].
  rewrite statement_app. f_equal. clearbody l.
  do 6 (destruct l; [reflexivity|]). do 8 (destruct l; [reflexivity|]). reflexivity.
Qed.
