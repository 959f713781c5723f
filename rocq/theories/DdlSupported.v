(** * DdlSupported: when ALTER TABLE and the DROP commands report an error *)
From Coq Require Import Lia.
From Verif Require Import GoBase GoBaseFacts QuoteModel SpecLex SpecIdent SpecSql EffectModel SpecText QuoteFacts QuotePf SqlFacts
  CacheModel UpsertModel DdlModel SpecDdl SpecDrop DdlToks DdlRead DdlConstraint DdlIndex DdlTable.
Local Open Scope m_scope.

Lemma is_postgres_iff : forall d, is_postgres d = true <-> d = DPostgres.
Proof. intros []; cbn; split; intros; congruence. Qed.
Lemma null_default_iff : forall s, is_empty s || equal_fold s (B "NULL") = true <-> null_default s.
Proof.
  intros s. unfold null_default. rewrite orb_true_iff, equal_fold_spec. change (map fold_case (B "NULL")) with (B "NULL"). rewrite beqb_eq.
  destruct s; cbn [is_empty]; intuition congruence.
Qed.
Lemma paren_default_iff : forall s : bytes, match s with a :: _ => Ascii.eqb a "(" && Ascii.eqb (last_byte s) ")" | [] => false end = true <->
  hd "0"%char s = "("%char /\ last s "0"%char = ")"%char.
Proof.
  intros [|a s]; [cbn; intuition congruence|]. cbn [hd]. unfold last_byte. rewrite andb_true_iff, !Ascii.eqb_eq. reflexivity.
Qed.
Lemma add_column_succ : forall d c, succ (add_column_sql d c) <-> add_column_supported d c.
Proof.
  intros d c. unfold add_column_sql, add_column_supported. cbn zeta. destruct (al_ignore c); [rewrite succ_ret; intuition congruence|].
  set (nd := is_empty _ || equal_fold _ _). assert (ND : nd = true <-> null_default (l_default (al_column c))) by apply null_default_iff.
  set (pd := match l_default (al_column c) with a :: _ => _ | [] => false end).
  assert (PD : pd = true <-> hd "0"%char (l_default (al_column c)) = "("%char /\ last (l_default (al_column c)) "0"%char = ")"%char) by apply paren_default_iff.
  rewrite !succ_seq, column_succ, !succ_when, !succ_emit.
  assert (A1 : succ (if is_postgres d then emit (B "IF NOT EXISTS ") else fail) <-> d = DPostgres).
  { rewrite succ_if, succ_emit, succ_fail. rewrite <- is_postgres_iff. destruct (is_postgres d); intuition congruence. }
  rewrite A1.
  assert (A2 : succ (seqs (map (fun e => emit (B " CHECK (" ++ e ++ B ")")) (al_checks c)) ;;
       when (negb (is_empty (al_ref_table c)) && negb (is_empty (al_ref_column c)))
         (emit (B " REFERENCES " ++ quote_identifier d (al_ref_table c) ++ B " (" ++ quote_identifier d (al_ref_column c) ++ B ")"))) <-> True).
  { rewrite succ_seq, succ_seqs, Forall_map_in, succ_when, !succ_emit. split; [tauto|]. intros _. split; [|tauto]. intros x _. now rewrite succ_emit. }
  rewrite A2. clear A1 A2. rewrite !succ_seq, !succ_when, !succ_seq, !succ_when, !succ_fail. clearbody nd pd.
  assert (S1 : is_sqlite d = true <-> d = DSQLite) by (destruct d; cbn; intuition congruence). rewrite S1.
  assert (G1 : (negb (is_empty (l_generated (al_column c))) && l_stored (al_column c) = true) <-> (l_generated (al_column c) <> [] /\ l_stored (al_column c) = true)).
  { rewrite andb_true_iff, not_empty_true. tauto. }
  rewrite G1. rewrite andb_true_iff, orb_true_iff, !not_empty_true, negb_true_iff, ND, PD, <- not_true_iff_false, ND.
  assert (P1 : forall b : bool, (b = true -> False) <-> b = false) by (intros []; intuition congruence).
  rewrite <- (P1 (l_primary_key _)), <- (P1 (l_unique _)).
  assert (DEC : null_default (l_default (al_column c)) \/ ~ null_default (l_default (al_column c))) by (rewrite <- ND; destruct nd; [left|right]; congruence).
  clear - DEC. generalize dependent (null_default (l_default (al_column c))). intros N DEC.
  generalize (hd "0"%char (l_default (al_column c)) = "("%char /\ last (l_default (al_column c)) "0"%char = ")"%char). intros P.
  generalize (l_generated (al_column c) <> [] /\ l_stored (al_column c) = true). intros G.
  generalize (al_ref_table c <> []) (al_ref_column c <> []). intros R1 R2. generalize (column_supported d (al_column c)) (al_if_not_exists c = true -> d = DPostgres) (l_primary_key (al_column c) = true) (l_unique (al_column c) = true) (l_not_null (al_column c) = true) (d = DSQLite).
  intros CS IE PK UN NN SQ. assert (F : (false = true) <-> False) by (split; [discriminate|tauto]). rewrite F. unfold not. clear F. tauto.
Qed.
Lemma alter_column_succ : forall d c, succ (alter_column_sql d c) <-> alter_column_supported d c.
Proof.
  intros d c. unfold alter_column_sql, alter_column_supported. destruct (ac_ignore c); [rewrite succ_ret; intuition congruence|].
  destruct d; rewrite ?succ_fail, ?succ_seq, ?succ_emit, ?column_succ, ?succ_sep_by; try (intuition congruence).
  split; [intros _; right; now right|]. intros _. apply Forall_map_in. intros x _. now apply succ_emit.
Qed.
Lemma drop_succ : forall d what ie n ca, succ (drop_sql d what ie n ca) <-> drop_supported d ie ca.
Proof.
  intros d what ie n ca. unfold drop_sql, drop_supported. rewrite !succ_seq, !succ_when, !succ_emit, !succ_if, !succ_emit, !succ_fail.
  rewrite <- is_postgres_iff. destruct (is_postgres d), ie, ca; intuition congruence.
Qed.
Lemma drop_column_succ : forall d c, succ (drop_column_sql d c) <-> dl_ignore c = true \/ drop_supported d (dl_if_exists c) (dl_cascade c).
Proof. intros d c. unfold drop_column_sql. destruct (dl_ignore c); [rewrite succ_ret|rewrite drop_succ]; intuition congruence. Qed.
Lemma drop_constraint_succ : forall d c, succ (drop_constraint_sql d c) <-> dk_ignore c = true \/ (d <> DSQLite /\ drop_supported d (dk_if_exists c) (dk_cascade c)).
Proof.
  intros d c. unfold drop_constraint_sql. destruct (dk_ignore c); [rewrite succ_ret; intuition congruence|]. rewrite succ_if, succ_fail, drop_succ.
  destruct d; cbn [is_sqlite]; intuition congruence.
Qed.
Lemma add_constraint_succ : forall d c, succ (add_constraint_sql d c) <-> add_constraint_supported d c.
Proof.
  intros d c. unfold add_constraint_sql, add_constraint_supported. cbn zeta. set (k := at_constraint c). destruct (at_ignore c); [rewrite succ_ret; intuition congruence|].
  rewrite succ_if, succ_fail, !succ_seq, !succ_when, !succ_emit, succ_if, !succ_seq, !succ_when, !succ_emit, !succ_fail, constraint_succ.
  rewrite not_empty_true, not_empty_false, negb_true_iff.
  assert (V : succ (match d with
       | DPostgres => if negb (beqb (c_type k) CHECK) && negb (beqb (c_type k) FOREIGN_KEY) then fail else emit (B " NOT VALID")
       | DMySQL => if negb (beqb (c_type k) CHECK) then fail else emit (B " NOT ENFORCED")
       | _ => ret end) <-> (d = DPostgres -> c_type k = CHECK \/ c_type k = FOREIGN_KEY) /\ (d = DMySQL -> c_type k = CHECK)).
  { rewrite <- !beqb_eq. destruct d; rewrite ?succ_ret, ?succ_if, ?succ_fail, ?succ_emit; destruct (beqb (c_type k) CHECK), (beqb (c_type k) FOREIGN_KEY); cbn; intuition congruence. }
  rewrite V. clear V. rewrite <- !beqb_eq, andb_true_iff, !negb_true_iff.
  assert (SQ : is_sqlite d = true <-> d = DSQLite) by (destruct d; cbn; intuition congruence).
  assert (SF : is_sqlite d = false <-> d <> DSQLite) by (destruct d; cbn; intuition congruence).
  assert (PF : is_postgres d = false <-> d <> DPostgres) by (destruct d; cbn; intuition congruence).
  rewrite SQ, SF, PF. assert (SD : d = DSQLite \/ d <> DSQLite) by (destruct d; intuition congruence). assert (PD : d = DPostgres \/ d <> DPostgres) by (destruct d; intuition congruence).
  assert (EM : at_index c = [] \/ at_index c <> []) by (destruct (at_index c); [now left|right; congruence]).
  destruct (beqb (c_type k) PRIMARY_KEY), (beqb (c_type k) UNIQUE); generalize dependent (d = DSQLite); intros SQL; generalize dependent (d = DPostgres); intros PG; generalize dependent (at_index c = []); intros EE;
    generalize (d = DMySQL) (constraint_supported d k) (beqb (c_type k) CHECK = true) (beqb (c_type k) FOREIGN_KEY = true) (at_not_valid c = true) (c_deferrable k = true); intros; intuition congruence.
Qed.
Lemma alter_constraint_succ : forall d c, succ (alter_constraint_sql d c) <-> ak_ignore c = true \/ (d <> DSQLite /\ d <> DMySQL).
Proof.
  intros d c. unfold alter_constraint_sql. destruct (ak_ignore c); [rewrite succ_ret; intuition congruence|].
  destruct d; cbn [is_mysql is_sqlite]; rewrite ?succ_fail; try (intuition congruence);
    (split; [intros _; right; split; discriminate|intros _]; destruct (ak_alter c); [|now apply succ_ret]; cbn [negb]; rewrite succ_seq, succ_if, !succ_emit; intuition).
Qed.
Lemma alter_index_succ : forall d c, succ (when (is_mysql d) (emit (B "ADD ")) ;; create_index_sql d c) <-> ci_ignore c = true \/ index_supported d c.
Proof.
  intros d c. rewrite succ_seq, succ_when, succ_emit. destruct (ci_ignore c) eqn:IG.
  - unfold create_index_sql. rewrite IG, succ_ret. tauto.
  - rewrite (index_succ d c IG). intuition congruence.
Qed.
Lemma drop_index_succ : forall d c, succ (drop_index_sql d c) <-> dx_ignore c = true \/ drop_index_supported d c.
Proof.
  intros d c. unfold drop_index_sql, drop_index_supported. destruct (dx_ignore c); [rewrite succ_ret; intuition congruence|].
  rewrite !succ_seq, !succ_when, !succ_emit, !succ_if, !succ_emit, !succ_fail.
  destruct (dx_concurrently c), (dx_if_exists c), (dx_cascade c), d; cbn; intuition congruence.
Qed.
Lemma alter_table_succ : forall d a, a_ignore a = false -> (succ (alter_table_sql d a) <-> alter_table_supported d a).
Proof.
  intros d a IG. unfold alter_table_sql, alter_table_supported. rewrite IG. cbn zeta.
  rewrite !succ_seq, !succ_when, !succ_emit, succ_elements, !Forall_app, !Forall_map_in, !succ_fail.
  assert (A1 : (a_if_exists a = true -> succ (if is_postgres d then emit (B "IF EXISTS ") else fail)) <-> (a_if_exists a = true -> d = DPostgres)).
  { rewrite succ_if, succ_emit, succ_fail, <- is_postgres_iff. destruct (is_postgres d); intuition congruence. }
  assert (A2 : (is_sqlite d && Nat.ltb 1 (length (a_add_columns a) + length (a_alter_columns a) + length (a_drop_columns a)) = true -> False) <->
    (d = DSQLite -> length (a_add_columns a) + length (a_alter_columns a) + length (a_drop_columns a) <= 1)).
  { set (n := _ + _). rewrite andb_true_iff, Nat.ltb_lt. destruct d; cbn [is_sqlite]; (split; [intros H1 H2|intros H1 [H2 H3]]); try discriminate; lia. }
  assert (A3 : ((is_sqlite d || is_postgres d) && Nat.ltb 0 (length (a_create_indexes a) + length (a_drop_indexes a)) = true -> False) <->
    (d = DSQLite \/ d = DPostgres -> a_create_indexes a = [] /\ a_drop_indexes a = [])).
  { destruct (a_create_indexes a), (a_drop_indexes a), d; cbn; intuition congruence. }
  rewrite A1, A2, A3. clear A1 A2 A3.
  assert (F : forall A (P Q : A -> Prop) l, (forall x, P x <-> Q x) -> ((forall x, In x l -> P x) <-> (forall x, In x l -> Q x))).
  { intros A P Q l H. split; intros Z x X; apply H; auto. }
  rewrite (F _ _ _ (a_add_columns a) (add_column_succ d)), (F _ _ _ (a_alter_columns a) (alter_column_succ d)), (F _ _ _ (a_drop_columns a) (drop_column_succ d)),
    (F _ _ _ (a_drop_constraints a) (drop_constraint_succ d)), (F _ _ _ (a_add_constraints a) (add_constraint_succ d)), (F _ _ _ (a_alter_constraints a) (alter_constraint_succ d)),
    (F _ _ _ (a_create_indexes a) (alter_index_succ d)), (F _ _ _ (a_drop_indexes a) (drop_index_succ d)).
  assert (DX : (d = DSQLite \/ d = DPostgres -> a_create_indexes a = [] /\ a_drop_indexes a = []) ->
    ((forall x, In x (a_drop_indexes a) -> dx_ignore x = true \/ drop_index_supported d x) <->
     (forall x, In x (a_drop_indexes a) -> dx_ignore x = true \/ dx_concurrently x = false /\ dx_if_exists x = false /\ dx_cascade x = false))).
  { intros H. unfold drop_index_supported. split; intros Z x X; specialize (Z x X).
    - assert (ND : d <> DSQLite /\ d <> DPostgres) by (split; intros ->; destruct H as [_ H]; try tauto; rewrite H in X; destruct X).
      destruct Z as [Z|Z]; [now left|right]. destruct ND. destruct (dx_concurrently x), (dx_if_exists x), (dx_cascade x); intuition congruence.
    - destruct Z as [Z|(-> & -> & ->)]; [now left|right]. repeat split; discriminate. }
  split.
  - intros H. decompose [and] H. clear H. repeat (split; [assumption|]). apply DX; assumption.
  - intros (H1 & H2 & H3 & H4 & H5 & H6 & H7 & H8 & H9 & H10 & H11). repeat (split; [assumption || exact I|]). split; [|exact I]. repeat (split; [assumption|]). now apply DX.
Qed.
