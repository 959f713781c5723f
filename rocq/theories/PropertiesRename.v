(** * PropertiesRename: C82, the command that renames tables

    RenameTableCommand says which tables get which names.  Outside MySQL it
    writes one ALTER TABLE statement, which the database reads as exactly that
    renaming; it reports an error for exactly the renamings the dialect cannot
    do in one statement, and never panics when every table has its schema and
    its new name. *)
From Verif Require Import GoBase QuoteModel SpecLex SpecIdent SpecSql EffectModel SpecText CacheModel UpsertModel DdlModel SpecDdl SpecDrop DdlIndex SqlFacts QuoteFacts
  RenameModel SpecRename RenamePf.
Local Open Scope m_scope.

(** Postgres, SQLite, SQL Server: the statement is read as the renaming of the
    one table to its new name, with IF EXISTS just when it was asked for. *)
Theorem rename_table_reads_back : forall d c s,
  d <> DMySQL -> rt_ignore c = false -> rename_names_ok d c -> text_of (rename_table_sql d c) = Some s ->
  exists sc n n' ss ns, rt_schemas c = sc :: ss /\ rt_names c = [n] /\ rt_to_names c = n' :: ns /\
  exists ts, tokens d s = Some ts /\ read_rename ts = Some (mk_rename_def (rt_if_exists c) (sc, n) n').
Proof. exact rename_reads. Qed.
Print Assumptions rename_table_reads_back.

(** A well-formed command succeeds exactly if the dialect can do it, and
    otherwise reports an error. *)
Theorem rename_table_errors : forall d c,
  rt_ignore c = false -> rename_well_formed c ->
  (snd (rename_table_sql d c) = SOk <-> rename_supported d c) /\ snd (rename_table_sql d c) <> SPanic.
Proof. exact rename_status. Qed.
Print Assumptions rename_table_errors.

(** A command marked to be ignored writes nothing. *)
Theorem rename_ignored : forall d c, rt_ignore c = true -> rename_table_sql d c = ret.
Proof. intros d c H. unfold rename_table_sql. now rewrite H. Qed.
Print Assumptions rename_ignored.

(** MySQL: the text names exactly the pairs, in order, but with the words
    RENAME TO between the names of a pair, where MySQL has TO: MySQL accepts
    none of these statements. *)
Theorem mysql_rename_rejected_refuted : forall c s,
  rt_ignore c = false -> rename_names_ok DMySQL c -> rename_well_formed c -> text_of (rename_table_sql DMySQL c) = Some s ->
  exists ts, tokens DMySQL s = Some ts /\
    read_renames ["RENAME"; "TO"]%string ts = Some (renames (rt_schemas c) (rt_names c) (rt_to_schemas c) (rt_to_names c)) /\
    read_renames ["TO"]%string ts = None.
Proof. exact renames_mysql. Qed.
Print Assumptions mysql_rename_rejected_refuted.

(** Outside MySQL the schemas to move the table to are silently ignored. *)
Theorem new_schema_ignored_refuted : forall d ie ss ns ss' ts ig ss2, d <> DMySQL ->
  rename_table_sql d (mk_rename_table ie ss ns ss' ts ig) = rename_table_sql d (mk_rename_table ie ss ns ss2 ts ig).
Proof. intros d ie ss ns ss' ts ig ss2 H. destruct d; try reflexivity. congruence. Qed.
Print Assumptions new_schema_ignored_refuted.

(** Without schemas the command panics; in MySQL it writes no names at all. *)
Theorem rename_without_schemas_refuted : forall d n ts,
  snd (rename_table_sql d (mk_rename_table false [] [n] [] ts false)) = match d with DMySQL => SOk | _ => SPanic end.
Proof. intros d n ts. now destruct d. Qed.
Print Assumptions rename_without_schemas_refuted.

Local Open Scope string_scope.
Definition toks (d : dialect) (m : M) : list tok := match text_of m with Some s => match tokens d s with Some ts => ts | None => [] end | None => [] end.
Example rename_table_ex :
  let c := mk_rename_table true [B "app"] [B "order items"] [[]] [B "to"] false in
  let c2 := mk_rename_table false [[]; B "app"] [B "a"; B "b"] [[]; []] [B "c"; B "d"] false in
  rename_names_ok DPostgres c /\ rename_well_formed c /\ rename_supported DPostgres c /\ ~ rename_supported DSQLite c /\
  read_rename (toks DPostgres (rename_table_sql DPostgres c)) = Some (mk_rename_def true (B "app", B "order items") (B "to")) /\
  snd (rename_table_sql DSQLite c) = SErr /\
  rename_names_ok DMySQL c2 /\ rename_well_formed c2 /\ snd (rename_table_sql DPostgres c2) = SErr /\
  text_of (rename_table_sql DMySQL c2) = Some (B "RENAME TABLE a RENAME TO c, app.b RENAME TO d").
Proof.
  cbv zeta. repeat match goal with |- _ /\ _ => split end; try (vm_compute; reflexivity); try (repeat constructor; apply collapse_id_iff; vm_compute; reflexivity); idtac.
  all: match goal with
    | |- rename_supported _ _ => intros _; split; [apply le_n|reflexivity]
    | |- rename_well_formed _ => split; [discriminate|split; [reflexivity|split; reflexivity]]
    | |- ~ _ => intros H; destruct (H ltac:(discriminate)) as [_ X]; specialize (X eq_refl); discriminate X
    | |- rename_names_ok _ _ => unfold rename_names_ok; cbn [rt_schemas rt_names rt_to_schemas rt_to_names app]; repeat (constructor; [apply collapse_id_iff; vm_compute; reflexivity|]); constructor
    end.
Qed.
