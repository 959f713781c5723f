(** * PropertiesIntro: reading the catalog of a database (C59, C60) *)
From Coq Require Import Lia.
From Verif Require Import GoBase GoBaseFacts QuoteModel BuildModel CacheModel SpecCache SpecSprintf SpecToken UpsertModel TokenModel DdlModel MigrateModel SpecMigrate SpecExec MigrateRun MigrateCheck PropertiesMigrate
  LoadModel LoadFacts LoadDefault SpecLoad SpecT TriggerModel SpecTrigger TriggerStore ViewModel DbModel SpecDb PropertiesToken PropertiesDb IntroModel SpecIntro IntroPf.

(** ** C59: the rows *)
(** GetTables, GetColumns, ... return exactly the objects that the rows report,
    in their order. *)
Theorem objects_read : forall numeric d, introspectable d ->
  (forall ts res, listed (table_row d) ts res -> read (decode_table d) res = LOk ts) /\
  (forall ls res, listed (column_row numeric d) ls res -> read (decode_column numeric d) res = LOk ls) /\
  (forall cs res, listed (constraint_row d) cs res -> read (decode_constraint d) res = LOk cs) /\
  (forall xs res, listed (index_row d) xs res -> read (decode_index d) res = LOk xs) /\
  (forall gs res, listed (trigger_row d) gs res -> read (decode_trigger d) res = LOk gs) /\
  (forall vs res, listed (view_row d) vs res -> read (decode_view d) res = LOk vs) /\
  (forall fs res, listed function_row fs res -> read decode_function res = LOk fs).
Proof.
  intros numeric d D. repeat split; intros l res H; (eapply read_ok; [|exact H]); intros a r.
  - apply table_row_ok.
  - now apply column_row_ok.
  - now apply constraint_row_ok.
  - now apply index_row_ok.
  - now apply trigger_row_ok.
  - now apply view_row_ok.
  - apply function_row_ok.
Qed.
Print Assumptions objects_read.
(** So two different lists of objects never look the same to a reader. *)
Theorem objects_distinguished : forall d xs ys res, introspectable d -> listed (index_row d) xs res -> listed (index_row d) ys res -> xs = ys.
Proof. intros d xs ys res D X Y. destruct (objects_read (fun _ => false) d D) as (_ & _ & _ & H & _). pose proof (H xs res X). pose proof (H ys res Y). congruence. Qed.
Print Assumptions objects_distinguished.
(** GetVersionNums returns the numbers of the version. *)
Theorem version_read : forall d nums s res, version_text d nums s -> says s res -> get_version d res = LOk (map Z.of_nat nums).
Proof. exact get_version_ok. Qed.
Print Assumptions version_read.

(** ** C60: a whole database *)
(** [complete] rows: the query succeeded, every row could be read and the result
    set ended without an error. *)
Lemma lbind_inv {A B} (x : lexres A) (k : A -> lexres B) b : lbind x k = LOk b -> exists a, x = LOk a /\ k a = LOk b.
Proof. destruct x as [a| | |]; try discriminate. intros H. now exists a. Qed.
Lemma first_row_inv res s : first_row res = LOk s -> exists rs, res = Result rs true.
Proof. unfold first_row. destruct res as [|[|[s'|] rs] [|]]; try discriminate; intros _; eauto. Qed.
(** No truncated catalog: if WithDB succeeds then every query succeeded and was
    read to its end (but for the extensions: see below). *)
Theorem nothing_missed : forall numeric rd b b', with_raw_db numeric rd b = LOk b' ->
  let d := dialect_of (b_dialect b) in
  introspectable d /\ rd_alive rd = true /\
  complete (rd_tables rd) /\ complete (rd_views rd) /\ complete (rd_columns rd) /\ complete (rd_constraints rd) /\ complete (rd_indexes rd) /\
  complete (rd_triggers rd) /\ (d = DPostgres -> complete (rd_functions rd)) /\
  (exists rs, rd_version rd = Result rs true) /\ (exists rs, rd_database rd = Result rs true) /\
  (d <> DSQLite -> exists rs, rd_current rd = Result rs true) /\
  (d = DPostgres -> exists rs ends, rd_extensions rd = Result (map Some rs) ends).
Proof.
  intros numeric rd b b' H d. unfold with_raw_db in H. fold d in H. cbv zeta in H. destruct (rd_alive rd); [|discriminate]. cbn [negb orb] in H.
  destruct (is_sqlite d || is_postgres d || is_mysql d) eqn:D; [|discriminate]. cbn [negb] in H.
  apply lbind_inv in H. destruct H as (z1 & H1 & H). apply lbind_inv in H. destruct H as (z2 & H2 & H). apply lbind_inv in H. destruct H as (z3 & H3 & H).
  apply lbind_inv in H. destruct H as (z4 & H4 & H). apply lbind_inv in H. destruct H as (z5 & H5 & H). apply lbind_inv in H. destruct H as (z6 & H6 & H).
  apply lbind_inv in H. destruct H as (z7 & H7 & H). apply lbind_inv in H. destruct H as (z8 & H8 & H). apply lbind_inv in H. destruct H as (z9 & H9 & H).
  apply lbind_inv in H. destruct H as (z10 & H10 & H). apply lbind_inv in H. destruct H as (z11 & H11 & _).
  assert (C : forall A R (decode : R -> lexres A) res l, read decode res = LOk l -> complete res).
  { intros A R decode res l X. destruct (read_complete decode res l X) as (rs & -> & _). now exists rs. }
  split; [unfold introspectable; destruct d; auto; discriminate|]. split; [reflexivity|].
  split; [now apply C in H5|]. split; [now apply C in H6|]. split; [now apply C in H7|]. split; [now apply C in H8|]. split; [now apply C in H9|]. split; [now apply C in H11|].
  split. { intros E. rewrite E in H10. now apply C in H10. }
  split. { unfold get_version in H1. apply lbind_inv in H1. destruct H1 as (s & H1 & _). now apply first_row_inv in H1. }
  split. { unfold get_database in H2. now apply first_row_inv in H2. }
  split. { intros N. unfold get_current in H3. destruct d; try congruence; cbn [is_sqlite] in H3; now apply first_row_inv in H3. }
  intros E. rewrite E in H4. cbn [is_postgres] in H4. unfold get_extensions in H4. cbn [is_postgres negb] in H4. destruct (rd_extensions rd) as [|rs ends]; [discriminate|].
  destruct (read_rows_complete _ rs z4 H4) as (rs' & -> & _). eauto.
Qed.
Print Assumptions nothing_missed.

(** The metadata is the catalog that the database reports. *)
Lemma reported_answers numeric rd b current extensions R : let d := dialect_of (b_dialect b) in
  introspectable d -> reported numeric d current extensions R rd ->
  exists an, with_raw_db numeric rd b = with_db an b /\ answers_with current (if is_postgres d then extensions else []) (asked d R) an.
Proof.
  intros d D (A & (vs & nums & V1 & V2) & (db & (more & Db)) & Cu & Ex & T & Vw & Co & Ct & Ix & Fn & Tr).
  destruct (objects_read numeric d D) as (Q1 & Q2 & Q3 & Q4 & Q5 & Q6 & Q7).
  assert (E1 : get_current d (rd_current rd) = LOk current).
  { unfold get_current. destruct D as [E|[E|E]]; rewrite E in *; cbn [is_sqlite]; [now rewrite Cu|..]; destruct Cu as (m & ->); reflexivity. }
  assert (E2 : (if is_postgres d then get_extensions d (rd_extensions rd) else LOk []) = LOk (if is_postgres d then extensions else [])).
  { destruct D as [E|[E|E]]; rewrite E in *; cbn [is_postgres]; [reflexivity| |reflexivity]. destruct (Ex eq_refl) as (rs & Q & F). unfold get_extensions. cbn [is_postgres negb]. rewrite Q.
    apply (read_rows_ok (fun e r => e = fst r ++ B "@" ++ snd r)); [now intros e r ->|exact F]. }
  assert (E3 : (if is_postgres d then read decode_function (rd_functions rd) else LOk []) = LOk (if is_postgres d then r_functions R else [])).
  { destruct D as [E|[E|E]]; rewrite E in *; cbn [is_postgres]; [reflexivity| |reflexivity]. apply Q7, (Fn eq_refl). }
  unfold with_raw_db. fold d. cbv zeta. rewrite A, (get_version_ok d nums vs _ V2 V1), Db, E1, E2, (Q1 _ _ T), (Q6 _ _ Vw), (Q2 _ _ Co), (Q3 _ _ Ct), (Q4 _ _ Ix), E3, (Q5 _ _ Tr).
  replace (negb true || negb (is_sqlite d || is_postgres d || is_mysql d)) with false by (destruct D as [E|[E|E]]; now rewrite E). cbn [get_database first_row lbind].
  eexists. split; [reflexivity|]. repeat split.
Qed.
Lemma asked_twice d R : asked d (asked d R) = asked d R.
Proof. unfold asked. cbn. now destruct (is_postgres d). Qed.
Theorem database_read : forall numeric rd b current extensions R, let d := dialect_of (b_dialect b) in
  introspectable d -> reported numeric d current extensions R rd ->
  exists b', with_raw_db numeric rd b = LOk b' /\
    let db := plain_metadata b' in
    d_dialect db = b_dialect b /\
    (well_formed (asked d R) ->
       catalog_as_read (asked d R) (objects (d_schemas db)) /\ d_current db = current /\ (d = DPostgres -> d_extensions db = extensions) /\
       (well_named d (asked d R) ->
          (forall i, lists db i <-> told (asked d R) i) /\ nothing_ignored db /\
          (current = [] \/ ~ told (asked d R) (ISchema []) -> catalog d current db))).
Proof.
  intros numeric rd b current extensions R d D Rp. destruct (reported_answers numeric rd b current extensions R D Rp) as (an & E & A). fold d in A. rewrite E.
  pose proof (with_db_ok an b current _ (asked d R) D A) as Ok. eexists. split; [exact Ok|]. cbv zeta. split; [reflexivity|]. intros W. fold d in Ok. rewrite asked_twice in Ok. fold d. rewrite asked_twice.
  assert (W' : well_formed (asked d (asked d R))) by now rewrite asked_twice.
  destruct (with_db_reads current _ (asked d R) an b _ A Ok W') as (C & _ & Cu & Ex). fold d in C, Ex. rewrite asked_twice in C.
  split; [exact C|]. split; [exact Cu|]. split; [intros P; rewrite (Ex P), P; reflexivity|]. intros N.
  assert (N' : well_named d (asked d (asked d R))) by now rewrite asked_twice.
  destruct (with_db_catalog current _ (asked d R) an b _ A Ok W' N') as (L & I & Ct). fold d in L, Ct. rewrite asked_twice in L, Ct. split; [exact L|]. split; [exact I|]. intros X. rewrite Cu in Ct. now apply Ct.
Qed.
Print Assumptions database_read.
(** From the rows to the commands: the migration leads from what the database
    reports to what is wanted. *)
Theorem database_migrated : forall numeric rd current extensions R dialect b m want mg,
  let d := dialect_of dialect in
  introspectable d -> reported numeric d current extensions R rd -> with_raw_db numeric rd (mk_dbm dialect [] [] [] cached_new) = LOk b ->
  well_formed (asked d R) -> well_named d (asked d R) -> current = [] \/ ~ told (asked d R) (ISchema []) ->
  catalog d current want -> extensions_apart want extensions -> plain_views want -> names_agree (plain_metadata b) want ->
  (forall sc, In sc (objects (d_schemas want)) -> NoDup (map f_name (filter (fun f => negb (f_ignore f)) (fobjects (s_functions sc))))) ->
  migrate m (plain_metadata b) want = Ok mg -> dialect_of (m_dialect mg) = d ->
  create_missing m = true -> drop_extraneous m = true ->
  forall es, arranged es (m_cmds mg) -> forall i, in_scope d i -> (forall s, i <> ISchema s) ->
  after d current es (told (asked d R)) i <-> lists want i.
Proof.
  intros numeric rd current extensions R dialect b m want mg d D Rp H W V Cu Cw Xw Pv Na Nf Mg Dm CM DE es Ar i Sc Ns.
  destruct (reported_answers numeric rd (mk_dbm dialect [] [] [] cached_new) current extensions R D Rp) as (an & E & A). cbn [b_dialect] in A. fold d in A. rewrite E in H.
  rewrite <- (asked_twice d R).
  eapply (read_and_migrate current _ (asked d R) an dialect b m want mg A H); fold d; rewrite ?asked_twice; try eassumption.
  - intros Sq v I. destruct Rp as (_ & _ & _ & _ & _ & _ & (rs & _ & F) & _). change (r_views (asked d R)) with (r_views R) in I. clear -Sq I F.
    induction F as [|v0 r vs rs X F IH]; [destruct I|]. destruct I as [->|I]; [|now apply IH]. rewrite Sq in X. destruct X as (_ & _ & _ & X & _). exact X.
  - destruct Xw as [X|X]; [now left|right]. intros e sc I. destruct (is_postgres d); [now apply X|destruct I].
Qed.
Print Assumptions database_migrated.

(** *** Indexes of SQLite *)
(** An index is never misread: each column reported by the database stands at
    its place in the statement, and the others have the text that stands there. *)
Theorem sqlite_index_sound : forall r x pre inside tail, decode_index DSQLite r = LOk x ->
  xr_sql r = pre ++ B "(" ++ inside ++ B ")" ++ tail -> ~ In "("%char pre -> ~ In ")"%char tail ->
  forall i c, nth_error (x_columns x) i = Some c ->
  exists a, nth_error (split_args inside) i = Some a /\
    (c <> [] -> trim_space a = c /\ nth_error (x_exprs x) i = Some []) /\
    (c = [] -> nth_error (x_exprs x) i = Some (trim_space a)).
Proof.
  intros r x pre inside tail H E N1 N2 i c Hi. unfold decode_index in H. apply lbind_inv in H. destruct H as ((es & pr) & H & Hx). injection Hx as <-. cbn [x_columns x_exprs fst] in *.
  set (columns := split_list (xr_columns r)) in *. unfold sqlite_index_parts in H.
  assert (I1 : index_byte "(" (xr_sql r) = Some (length pre)) by (rewrite E; now apply index_byte_first).
  assert (E' : xr_sql r = (pre ++ B "(" ++ inside) ++ ")"%char :: tail) by (rewrite E, <- !app_assoc; reflexivity).
  assert (I2 : last_index_byte ")" (xr_sql r) = Some (length (pre ++ B "(" ++ inside))) by (rewrite E'; now apply last_index_last).
  assert (L : length (pre ++ B "(" ++ inside) = length pre + S (length inside)) by (rewrite !app_length; cbn; lia).
  replace (is_empty (xr_sql r)) with false in H by (rewrite E; destruct pre; reflexivity). rewrite I1, I2, L in H.
  replace (Nat.ltb (length pre) (length pre + S (length inside))) with true in H by (symmetry; apply Nat.ltb_lt; lia).
  replace (firstn (length pre + S (length inside) - S (length pre)) (skipn (S (length pre)) (xr_sql r))) with inside in H.
  2:{ rewrite E. replace (length pre + S (length inside) - S (length pre)) with (length inside) by lia. clear. induction pre as [|y pre IH]; [|exact IH].
      change (inside = firstn (length inside) (inside ++ B ")" ++ tail)). rewrite firstn_app, firstn_all, Nat.sub_diag. cbn [firstn]. now rewrite app_nil_r. }
  apply lbind_inv in H. destruct H as (es' & H & Q). destruct (pop_identifier DSQLite _) in Q. injection Q as <- _.
  clear -H Hi. revert es' i H Hi. generalize (split_args inside) as args. generalize dependent columns. intros columns. induction columns as [|k columns IH]; intros args es i H Hi; [destruct i; discriminate|].
  cbn [compare_args] in H. destruct args as [|a args]; [discriminate|]. destruct (is_empty k) eqn:K.
  - apply lbind_inv in H. destruct H as (es' & H & Q). injection Q as <-. destruct i as [|i]; [|exact (IH args es' i H Hi)]. injection Hi as <-. exists a. split; [reflexivity|]. destruct k; [|discriminate]. split; [congruence|reflexivity].
  - destruct (beqb (trim_space a) k) eqn:Q; [|discriminate]. apply beqb_eq in Q. apply lbind_inv in H. destruct H as (es' & H & Q'). injection Q' as <-. destruct i as [|i]; [|exact (IH args es' i H Hi)]. injection Hi as <-.
    exists a. split; [reflexivity|]. split; [now split|]. intros ->. discriminate.
Qed.
Print Assumptions sqlite_index_sound.

(** ** Examples *)
Definition no_numbers (s : bytes) : bool := false.
Lemma bytes_trimmed a c b : forallb (fun x => (ord x <? 128)%N) (a ++ c ++ b) = true -> forallb (fun x => is_space (ord x)) a = true -> forallb (fun x => is_space (ord x)) b = true ->
  match c with [] => true | x :: _ => negb (is_space (ord x)) && negb (is_space (ord (last c x))) end = true -> trimmed (a ++ c ++ b) c.
Proof.
  intros A Ha Hb Hc. exists (map ord a), (map ord c), (map ord b).
  assert (X : forall s, forallb (fun x => (ord x <? 128)%N) s = true -> string_of_runes (map ord s) = s /\ forallb scalar (map ord s) = true).
  { clear. induction s as [|x s IH]; [now split|]. cbn [forallb map]. intros H. apply andb_true_iff in H. destruct H as (H1 & H2). destruct (IH H2) as (I1 & I2). split.
    - unfold string_of_runes in *. cbn [flat_map]. rewrite I1. unfold encode_rune. rewrite H1. now rewrite chr_ord.
    - rewrite I2, andb_true_r. unfold scalar. apply N.ltb_lt in H1. destruct x as [[] [] [] [] [] [] [] []]; vm_compute in H1; try discriminate; reflexivity. }
  destruct (X _ A) as (X1 & X2). rewrite !map_app in X1, X2. pose proof A as A'. rewrite !forallb_app in A'. apply andb_true_iff in A'. destruct A' as (_ & A'). apply andb_true_iff in A'. destruct A' as (Ac & _).
  destruct (X _ Ac) as (X3 & _).
  assert (M : forall (p : N -> bool) s, forallb p (map ord s) = forallb (fun x => p (ord x)) s) by (intros p s; induction s as [|x s IH]; [reflexivity|]; cbn; now rewrite IH).
  repeat split; auto; try (now rewrite M).
  - intros r H. destruct c as [|x c]; [discriminate|]. cbn in H. injection H as <-. apply andb_true_iff in Hc. destruct Hc as (Hc & _). now apply negb_true_iff in Hc.
  - intros r H. destruct c as [|x c]; [discriminate|]. apply andb_true_iff in Hc. destruct Hc as (_ & Hc). apply negb_true_iff in Hc. rewrite (app_removelast_last (l := x :: c) x) in H by discriminate.
    rewrite map_app, rev_app_distr in H. cbn in H. injection H as <-. exact Hc.
Qed.
Ltac args := repeat first
  [ apply arg_nil
  | apply arg_char; [cbn [In]; intuition discriminate|]
  | match goal with |- arg ("("%char :: ?s) => match eval compute in (index_byte ")" s) with Some ?k => apply (arg_paren (firstn k s) (skipn (S k) s)); [cbn; repeat (apply n_char; [discriminate|discriminate|]); apply n_nil|cbn] end end
  | match goal with |- arg ("'"%char :: ?s) => match eval compute in (index_byte "'" s) with Some ?k => apply (arg_string (firstn k s) (skipn (S k) s)); [cbn; repeat (apply sb_char; [discriminate|]); apply sb_nil|intros (? & ?); discriminate|cbn] end end ].
Ltac is_bare e := apply (bytes_trimmed [] e []); vm_compute; reflexivity.
(** Postgres: an index of a column and two expressions that includes a column;
    an exclusion; a check. *)
Definition pg_index : index :=
  mk_index (B "public") (B "film") (B "film_idx") (B "BTREE") true [B "title"; []; []] [[]; B "(lower(a, b))"; B "(x || ', ')"; []] [B "year"] (B "a > 0") [] [] false.
Definition pg_index_row : index_raw :=
  mk_xr (B "public") (B "film") (B "film_idx") (B "BTREE") true 3 (B "title,,,year") (B "lower(a, b), x || ', '") (B "a > 0") [].
Example pg_index_example : index_row DPostgres pg_index pg_index_row /\ decode_index DPostgres pg_index_row = LOk pg_index.
Proof.
  split; [|vm_compute; reflexivity]. repeat (split; [reflexivity|]). exists [Col (B "title"); Expr (B "lower(a, b)"); Expr (B "x || ', '")], [B "year"].
  split; [discriminate|]. split.
  { repeat apply Forall_cons; [split; [discriminate|cbn [In]; cbn; intuition discriminate]|split; [cbn; args|is_bare (B "lower(a, b)")]|split; [cbn; args|is_bare (B "x || ', '")]|constructor]. }
  split; [left; discriminate|]. split; [repeat constructor; [discriminate|cbn; intuition discriminate]|]. repeat split.
Qed.
Definition pg_constraint : constraint :=
  mk_constraint (B "public") (B "film") (B "film_excl") (B "EXCLUDE") [[]; B "room"] [B "int4range(a, b)"; []] [] [] [] [] [] [] [] [B "&&"; B "="] (B "GIST") [] true false [] false.
Definition pg_constraint_row : constraint_raw :=
  mk_cr (B "public") (B "film") (B "film_excl") (B "EXCLUDE") (B ",room") (B "int4range(a, b)") [] [] [] [] [] [] [] (B "&&,=") (B "GIST") [] true false.
Definition pg_check : constraint :=
  mk_constraint (B "public") (B "film") (B "film_check") (B "CHECK") [] [] [] [] [] [] [] [] (B "a > 0 OR (b)") [] [] [] false false [] false.
Definition pg_check_row : constraint_raw :=
  mk_cr (B "public") (B "film") (B "film_check") (B "CHECK") [] [] [] [] [] [] [] [] (B "CHECK (a > 0 OR (b))") [] [] [] false false.
Example pg_constraint_example : listed (constraint_row DPostgres) [pg_constraint; pg_check] (Result [Some pg_constraint_row; Some pg_check_row] true) /\
  read (decode_constraint DPostgres) (Result [Some pg_constraint_row; Some pg_check_row] true) = LOk [pg_constraint; pg_check].
Proof.
  split; [|vm_compute; reflexivity]. exists [pg_constraint_row; pg_check_row]. split; [reflexivity|].
  apply Forall2_cons; [|apply Forall2_cons; [|constructor]]; (split; [reflexivity|]; split; [reflexivity|]; split; [reflexivity|]; split; [constructor|]; repeat (split; [reflexivity|])).
  - split.
    { exists [Expr (B "int4range(a, b)"); Col (B "room")]. split.
      { repeat apply Forall_cons; [split; [cbn; args|is_bare (B "int4range(a, b)")]|split; [discriminate|cbn; intuition discriminate]|constructor]. }
      split; [right; discriminate|]. repeat split. }
    repeat (split; [reflexivity|]). split; [left; split; reflexivity|]. split; [|repeat split]. repeat constructor; try discriminate; cbn; intuition discriminate.
  - split. { exists []. split; [constructor|]. split; [right; discriminate|]. repeat split. }
    repeat (split; [reflexivity|]). split; [right; split; [discriminate|reflexivity]|]. split; [constructor|repeat split].
Qed.
(** SQLite: an index of a column and an expression, with a predicate. *)
Definition lite_index_row : index_raw :=
  mk_xr [] (B "film") (B "film_idx") [] false 0 (B "title,") [] [] (B "CREATE INDEX film_idx ON film (title, lower(a, b) ) where a > 0 ").
Definition lite_index : index :=
  mk_index [] (B "film") (B "film_idx") [] false [B "title"; []] [[]; B "lower(a, b)"] [] (B "a > 0") (xr_sql lite_index_row) [] false.
Example lite_index_example : index_row DSQLite lite_index lite_index_row /\ decode_index DSQLite lite_index_row = LOk lite_index.
Proof.
  split; [|vm_compute; reflexivity]. repeat (split; [reflexivity|]). exists [Col (B "title"); Expr (B "lower(a, b)")], [].
  split; [discriminate|]. split. { repeat apply Forall_cons; [split; [discriminate|cbn; intuition discriminate]|split; [cbn; args|is_bare (B "lower(a, b)")]|constructor]. }
  split; [right; discriminate|]. split; [constructor|]. repeat (split; [reflexivity|]).
  exists (B "CREATE INDEX film_idx ON film "), [B "title"; B " lower(a, b) "], (B " where a > 0 ").
  split; [reflexivity|]. split; [cbn; intuition discriminate|]. split; [cbn; intuition discriminate|]. split.
  - repeat apply Forall2_cons; [split; [cbn; args|is_bare (B "title")]|split; [cbn; args|apply (bytes_trimmed (B " ") (B "lower(a, b)") (B " ")); vm_compute; reflexivity]|constructor].
  - right. exists (B "where"), (B " a > 0 "). split; [vm_compute; reflexivity|]. split; [|apply (bytes_trimmed (B " ") (B "a > 0") (B " ")); vm_compute; reflexivity].
    apply (wt_cons DSQLite (B " ") (B "where") [] (B " a > 0 ") (B " a > 0 ")); [exists [32%N]; split; [reflexivity|repeat constructor; unfold blank; lia]|discriminate| |discriminate|].
    + assert (X : forall s, forallb (fun c => (97 <=? ord c)%N && (ord c <=? 122)%N) s = true -> ident DSQLite s).
      { clear. induction s as [|c s IH]; [constructor|]. cbn [forallb]. intros H. apply andb_true_iff in H. destruct H as (H1 & H2). replace (c :: s) with (encode_rune (ord c) ++ s).
        - apply id_rune; [| |intros Q|now apply IH]; destruct c as [[] [] [] [] [] [] [] []]; try discriminate; try reflexivity; cbn in Q; destruct Q as [Q|[]]; discriminate.
        - destruct c as [[] [] [] [] [] [] [] []]; try discriminate; reflexivity. }
      apply X. reflexivity.
    + constructor. right. exists 32%N, (B "a > 0 "). repeat split.
Qed.
(** MySQL: quotes escaped, a generated column. *)
Definition my_index : index :=
  mk_index (B "app") (B "film") (B "film_idx") (B "BTREE") false [[]; B "title"] [B "(concat(`a`,'x'))"; []] [] [] [] [] false.
Definition my_index_row : index_raw := mk_xr (B "app") (B "film") (B "film_idx") (B "BTREE") false 0 (B ",title") (B "concat(`a`,\'x\'),") [] [].
Example my_index_example : index_row DMySQL my_index my_index_row /\ decode_index DMySQL my_index_row = LOk my_index.
Proof.
  split; [|vm_compute; reflexivity]. repeat (split; [reflexivity|]). exists [Expr (B "concat(`a`,'x')"); Col (B "title")], [].
  split; [discriminate|]. split. { repeat apply Forall_cons; [split; [cbn; args|is_bare (B "concat(`a`,'x')")]|split; [discriminate|cbn; intuition discriminate]|constructor]. }
  split; [right; discriminate|]. split; [constructor|]. repeat split.
Qed.
Definition my_column : column := mk_column (B "app") (B "film") (B "full") (B "VARCHAR(90)") [] false true false false false (B "concat(`a`,' ')") true [] [] false.
Definition my_column_row : column_raw := mk_lr (B "app") (B "film") (B "full") (B "VARCHAR(90)") [] false true false (B "concat(`a`,\' \')") true [] [].
Example my_column_example : column_row no_numbers DMySQL my_column my_column_row /\ decode_column no_numbers DMySQL my_column_row = LOk my_column.
Proof. split; [repeat split|vm_compute; reflexivity]. Qed.
Definition lite_column : column := mk_column [] (B "film") (B "at") (B "DATETIME") [] false true false false false [] false [] (B "(datetime('now'))") false.
Definition lite_column_row : column_raw := mk_lr [] (B "film") (B "at") (B "DATETIME GENERATED ALWAYS") [] false true false [] false [] (B "datetime('now')").
Example lite_column_example : column_row no_numbers DSQLite lite_column lite_column_row /\ decode_column no_numbers DSQLite lite_column_row = LOk lite_column.
Proof.
  split; [|vm_compute; reflexivity]. repeat (split; [reflexivity|]). split; [left; reflexivity|]. right. right. split; [discriminate|]. split; [|reflexivity].
  rewrite <- needs_spec. vm_compute. discriminate.
Qed.
(** A whole database. *)
Definition pg_rows : rows :=
  mk_rows [empty_table (B "public") (B "film")] [mk_view (B "public") (B "film_list") true [] [] (B "SELECT 1") false]
    [mk_column (B "public") (B "film") (B "title") (B "TEXT") [] false true false false false [] false (B "C") (B "'x'::text") false]
    [pg_constraint; pg_check] [pg_index] [mk_func (B "lib") (B "f") (B "a integer") (B "CREATE FUNCTION ...") false]
    [mk_trigger (B "public") (B "film") (B "trg") (B "CREATE TRIGGER ...") false].
Definition pg_raw : raw_db :=
  mk_raw true (Result [Some (B "13.4 (Debian 13.4-1)")] true) (Result [Some (B "db")] true) (Result [Some (B "public")] true)
    (Result [Some (B "hstore", B "1.4")] true) (Result [Some (mk_tr (B "public") (B "film") [])] true)
    (Result [Some (mk_vr (B "public") (B "film_list") true (B "SELECT 1"))] true)
    (Result [Some (mk_lr (B "public") (B "film") (B "title") (B "TEXT") [] false true false [] false (B "C") (B "'x'::text"))] true)
    (Result [Some pg_constraint_row; Some pg_check_row] true) (Result [Some pg_index_row] true)
    (Result [Some (mk_fr (B "lib") (B "f") (B "CREATE FUNCTION ...") (B "a integer"))] true)
    (Result [Some (mk_gr (B "public") (B "film") (B "trg") (B "CREATE TRIGGER ...") [] [])] true).
Example pg_database_example : reported no_numbers DPostgres (B "public") [B "hstore@1.4"] pg_rows pg_raw /\
  well_formed (asked DPostgres pg_rows) /\ well_named DPostgres (asked DPostgres pg_rows) /\ ~ told (asked DPostgres pg_rows) (ISchema []).
Proof.
  split; [|split; [|split]].
  - split; [reflexivity|]. split. { exists (B "13.4 (Debian 13.4-1)"), [13; 4]. split; [now exists []|]. split; [discriminate|]. split; [repeat constructor; unfold max_int64; lia|]. right. split; [reflexivity|]. now exists (B "(Debian 13.4-1)"). }
    split; [exists (B "db"); now exists []|]. split; [now exists []|]. split; [intros _; exists [(B "hstore", B "1.4")]; repeat constructor|].
    split; [eexists [_]; repeat constructor|]. split; [eexists [_]; split; [reflexivity|]; repeat constructor; discriminate|]. split; [eexists [_]; repeat constructor|]. split; [exact (proj1 pg_constraint_example)|].
    split; [exists [pg_index_row]; split; [reflexivity|]; constructor; [exact (proj1 pg_index_example)|constructor]|]. split; [intros _; eexists [_]; repeat constructor|]. eexists [_]; repeat constructor.
  - split; [nodup|]. split; [repeat (constructor; [split; [discriminate|reflexivity]|]); constructor|]. split; [nodup|]. split; [repeat (constructor; [split; [discriminate|reflexivity]|]); constructor|].
    split; [nodup|]. repeat (constructor; [split; [discriminate|reflexivity]|]); constructor.
  - split; [intros _; split; [nodup|repeat (constructor; [discriminate|]); constructor]|]. split; [repeat (constructor; [reflexivity|]); constructor|]. split; [nodup|]. split; [repeat (constructor; [split; [discriminate|reflexivity]|]); constructor|].
    split; [nodup|]. split; [repeat (constructor; [split; [discriminate|reflexivity]|]); constructor|]. repeat (constructor; [split; [discriminate|reflexivity]|]); constructor.
  - intros [(r & I & E)|[(r & I & E)|(r & I & E)]]; cbn in I; repeat (destruct I as [<-|I]; [discriminate E|]); destruct I.
Qed.
Definition pg_read : dbm := match with_raw_db no_numbers pg_raw (mk_dbm (B "postgres") [] [] [] cached_new) with LOk b => b | _ => mk_dbm [] [] [] [] cached_new end.
Definition pg_wanted : metadata := ex_want (B "postgres").
Example pg_migrated_example :
  with_raw_db no_numbers pg_raw (mk_dbm (B "postgres") [] [] [] cached_new) = LOk pg_read /\ catalog DPostgres (B "public") pg_wanted /\ extensions_apart pg_wanted [B "hstore@1.4"] /\
  plain_views pg_wanted /\ names_agree (plain_metadata pg_read) pg_wanted /\
  (forall sc, In sc (objects (d_schemas pg_wanted)) -> NoDup (map f_name (filter (fun f => negb (f_ignore f)) (fobjects (s_functions sc))))) /\
  exists mg, migrate all_modes (plain_metadata pg_read) pg_wanted = Ok mg /\ dialect_of (m_dialect mg) = DPostgres /\ 10 <= length (m_cmds mg).
Proof.
  split; [vm_compute; reflexivity|]. split; [apply check_catalog_ok; vm_compute; reflexivity|]. split; [left; reflexivity|]. split; [apply check_plain_views_ok; vm_compute; reflexivity|].
  split; [apply check_names_agree_ok; vm_compute; reflexivity|]. split; [intros sc [<-|[<-|[]]]; apply nodupb_ok; vm_compute; reflexivity|].
  eexists. split; [vm_compute; reflexivity|]. split; [vm_compute; reflexivity|]. vm_compute. lia.
Qed.
(** Each failure makes WithDB fail. *)
Example nothing_missed_example :
  let lost := mk_raw true (rd_version pg_raw) (rd_database pg_raw) (rd_current pg_raw) (rd_extensions pg_raw) (rd_tables pg_raw) (rd_views pg_raw) (rd_columns pg_raw)
                (Result [Some pg_constraint_row; None] true) (rd_indexes pg_raw) (rd_functions pg_raw) (rd_triggers pg_raw) in
  let cut := mk_raw true (rd_version pg_raw) (rd_database pg_raw) (rd_current pg_raw) (rd_extensions pg_raw) (rd_tables pg_raw) (rd_views pg_raw) (rd_columns pg_raw)
                (rd_constraints pg_raw) (rd_indexes pg_raw) (rd_functions pg_raw) (Result [] false) in
  with_raw_db no_numbers lost (mk_dbm (B "postgres") [] [] [] cached_new) = LErr /\ with_raw_db no_numbers cut (mk_dbm (B "postgres") [] [] [] cached_new) = LErr.
Proof. split; vm_compute; reflexivity. Qed.
Example sqlite_index_sound_example : exists pre inside tail,
  xr_sql lite_index_row = pre ++ B "(" ++ inside ++ B ")" ++ tail /\ ~ In "("%char pre /\ ~ In ")"%char tail /\ nth_error (x_columns lite_index) 1 = Some [].
Proof.
  exists (B "CREATE INDEX film_idx ON film "), (B "title, lower(a, b) "), (B " where a > 0 ").
  split; [reflexivity|]. split; [cbn; intuition discriminate|]. split; [cbn; intuition discriminate|reflexivity].
Qed.

(** ** Where the reading falls short *)
(** The condition [visible] is needed: an index of a single expression has an
    empty list of columns.  SQLite's and MySQL's are read as indexes of nothing,
    Postgres's makes GetIndexes panic. *)
Theorem single_expression_index_refuted : forall r, xr_columns r = [] ->
  (forall x, decode_index DSQLite r = LOk x -> x_columns x = [] /\ x_exprs x = []) /\
  (forall x, decode_index DMySQL r = LOk x -> x_columns x = [] /\ x_exprs x = []) /\
  (1 <= xr_keys r -> decode_index DPostgres r = LPanic).
Proof.
  intros r E. unfold decode_index. rewrite E. change (split_list []) with (@nil bytes). split; [|split].
  - intros x H. apply lbind_inv in H. destruct H as ((es & pr) & H & Hx). injection Hx as <-. split; [reflexivity|]. cbn [x_exprs fst]. unfold sqlite_index_parts in H. cbn [map] in H.
    destruct (is_empty (xr_sql r)); [now injection H as <-|]. apply lbind_inv in H. destruct H as (es' & H & Q). destruct (pop_identifier DSQLite _) in Q. injection Q as <- _.
    destruct (index_byte "(" (xr_sql r)) as [i|]; [|now injection H]. destruct (last_index_byte ")" (xr_sql r)) as [j|]; [|now injection H]. destruct (Nat.ltb i j); now injection H.
  - cbn [pair_exprs lbind]. intros x H. injection H as <-. now split.
  - intros L. cbn [take_exprs length]. replace (xr_keys r <=? 0) with false by (symmetry; apply Nat.leb_gt; lia). reflexivity.
Qed.
Print Assumptions single_expression_index_refuted.
Example single_expression_example :
  decode_index DPostgres (mk_xr (B "public") (B "film") (B "i") (B "BTREE") false 1 [] (B "lower(a)") [] []) = LPanic /\
  exists x, decode_index DSQLite (mk_xr [] (B "film") (B "i") [] false 0 [] [] [] (B "CREATE INDEX i ON film (lower(a))")) = LOk x.
Proof. split; [reflexivity|]. eexists. vm_compute. reflexivity. Qed.
(** SQLite: sorted, collated or quoted columns are errors, and so is a predicate
    that contains a closing bracket. *)
Theorem sqlite_index_form_refuted :
  let read sql := decode_index DSQLite (mk_xr [] (B "film") (B "i") [] false 0 (B "title") [] [] sql) in
  read (B "CREATE INDEX i ON film (title DESC)") = LErr /\ read (B "CREATE INDEX i ON film (title COLLATE NOCASE)") = LErr /\
  read (B "CREATE INDEX i ON film (""title"")") = LErr /\ read (B "CREATE INDEX i ON film (title) WHERE lower(x) = 'a'") = LErr.
Proof. repeat split; vm_compute; reflexivity. Qed.
Print Assumptions sqlite_index_form_refuted.
(** Names with commas are torn apart. *)
Theorem comma_name_refuted : exists c, decode_constraint DPostgres
  (mk_cr (B "public") (B "film") (B "key") (B "UNIQUE") (join_commas [B "a,b"; B "c"]) [] [] [] [] [] [] [] [] [] [] [] false false) = LOk c /\
  c_columns c = [B "a"; B "b"; B "c"].
Proof. eexists. split; [vm_compute; reflexivity|reflexivity]. Qed.
Print Assumptions comma_name_refuted.
(** A check that is not validated keeps its brackets and the words that follow;
    MySQL's keeps the backslashes before its quotes. *)
Theorem check_text_refuted :
  (exists c, decode_constraint DPostgres (mk_cr (B "public") (B "t") (B "k") (B "CHECK") [] [] [] [] [] [] [] [] (B "CHECK (a > 0) NOT VALID") [] [] [] false false) = LOk c /\
     c_check c = B "(a > 0) NOT VALID") /\
  (exists c, decode_constraint DMySQL (mk_cr (B "app") (B "t") (B "k") (B "CHECK") [] [] [] [] [] [] [] [] (B "(`a` = \'x\')") [] [] [] false false) = LOk c /\
     c_check c = B "`a` = \'x\'").
Proof. split; eexists; (split; [vm_compute; reflexivity|reflexivity]). Qed.
Print Assumptions check_text_refuted.
(** The version of a MySQL server whose packager added to it is an error. *)
Theorem mysql_version_refuted : get_version DMySQL (Result [Some (B "8.0.27-0ubuntu0.20.04.1")] true) = LErr.
Proof. vm_compute. reflexivity. Qed.
Print Assumptions mysql_version_refuted.
(** SQLite's views: the statement is kept whole if AS stands at the end of a
    line, and cut at an alias if one follows. *)
Theorem sqlite_view_refuted :
  (exists v, decode_view DSQLite (mk_vr [] (B "v") false (B "CREATE VIEW v AS" ++ [chr 10] ++ B "SELECT 1")) = LOk v /\ v_sql v = B "CREATE VIEW v AS" ++ [chr 10] ++ B "SELECT 1") /\
  (exists v, decode_view DSQLite (mk_vr [] (B "v") false (B "CREATE VIEW v AS" ++ [chr 10] ++ B "SELECT a AS b FROM t")) = LOk v /\ v_sql v = B "b FROM t").
Proof. split; eexists; (split; [vm_compute; reflexivity|reflexivity]). Qed.
Print Assumptions sqlite_view_refuted.
(** In SQLite generated columns lose their expression, every table its virtual
    module and constraints their name. *)
Theorem sqlite_losses_refuted : forall numeric (l : column_raw) (t : table_raw) (c : constraint_raw),
  (exists l', decode_column numeric DSQLite l = LOk l' /\ l_generated l' = [] /\ l_stored l' = false /\ l_collation l' = [] /\ l_autoincrement l' = false) /\
  (exists t', decode_table DSQLite t = LOk t' /\ t_virtual t' = [] /\ t_virtual_args t' = []) /\
  (exists c', decode_constraint DSQLite c = LOk c' /\ c_name c' = [] /\ c_match c' = [] /\ c_deferrable c' = false /\ c_deferred c' = false).
Proof. intros numeric l t c. repeat split; eexists; repeat split. Qed.
Print Assumptions sqlite_losses_refuted.
(** GetExtensions does not notice that its result set broke off. *)
Theorem extensions_cut_refuted : forall rs ends, get_extensions DPostgres (Result (map Some rs) ends) = LOk (map (fun r => fst r ++ B "@" ++ snd r) rs).
Proof. intros rs ends. unfold get_extensions. cbn [is_postgres negb]. induction rs as [|r rs IH]; [reflexivity|]. cbn [map read_rows lbind]. now rewrite IH. Qed.
Print Assumptions extensions_cut_refuted.
