(** * Statements: C46, C47.  See SpecColumn. *)
From Verif Require Import GoBase GoBaseFacts QuoteModel EffectModel BuildModel CacheModel UpsertModel DdlModel MigrateModel
  SpecMigrate SpecColumn MigrateCheck ColumnPf PropertiesMigrate.

(** ** C46: created objects have the wanted definitions *)
Theorem created_definitions_are_wanted : forall m got want mg c,
  migrate m got want = Ok mg -> create_missing m = true -> In c (m_cmds mg) -> from_catalog want c.
Proof. exact definitions_from_catalog. Qed.
Print Assumptions created_definitions_are_wanted.
(** Without CreateMissing there are commands that are not from the catalog:
    [update_only_refuted] in PropertiesMigrate. *)

(** ** C47: UpdateExisting alters exactly the columns that differ *)
Theorem updates_changed_columns : forall m got want mg,
  migrate m got want = Ok mg -> update_existing m = true ->
  catalog (dialect_of (m_dialect mg)) (d_current got) got -> catalog (dialect_of (m_dialect mg)) (d_current got) want -> extensions_apart got (d_extensions want) ->
  let d := dialect_of (m_dialect mg) in
  (forall a ac, In (KAlterTable a) (m_cmds mg) -> In ac (a_alter_columns a) ->
     d <> DSQLite /\ exists k l, has_column got (a_schema a) (a_table a) k /\ has_column want (a_schema a) (a_table a) l /\
       l_name k = l_name l /\ differs d k l /\ alteration d k l ac) /\
  (forall s t k l, d <> DSQLite -> has_column got s t k -> has_column want s t l -> l_name k = l_name l -> differs d k l ->
     exists a ac, In (KAlterTable a) (m_cmds mg) /\ a_schema a = s /\ a_table a = t /\ In ac (a_alter_columns a) /\
       alteration d k l ac).
Proof. exact columns_updated. Qed.
Print Assumptions updates_changed_columns.
(** After the alteration the column does not differ any more. *)
Theorem alteration_settles : forall d k l a, d = DMySQL \/ d = DPostgres -> l_type l <> [] ->
  alteration d k l a -> ~ differs d (effect d a k) l.
Proof.
  intros d k l a D NE H. assert (R : forall x, ~ (x = [] <-> x <> @nil ascii)) by (intros [|y x] [H1 H2]; [now apply H1|now assert (y :: x = []) by now apply H2]).
  destruct D as [-> | ->].
  - unfold alteration in H. cbv zeta in H. rewrite H. intros [X|[X|[X|[X _]]]].
    + apply X, same_type_refl.
    + now apply X.
    + now apply R in X.
    + discriminate.
  - unfold alteration in H. cbv zeta in H. destruct H as (H1 & H2 & H3 & H4 & H5 & H6 & H7). set (e := effect DPostgres a k) in *.
    assert (ED : forall x y : bytes, (x = [] <-> y <> []) \/ ~ (x = [] <-> y <> [])) by
      (intros [|x0 x] [|y0 y]; [right|left|left|right]; intuition congruence).
    intros [X|[X|[X|[_ X]]]].
    + apply X. pose proof (equal_fold_same (l_type k) (l_type l)) as Q. destruct (equal_fold (l_type k) (l_type l)) eqn:F.
      * assert (S : same_type (l_type k) (l_type l)) by now apply Q. now rewrite (H1 S).
      * rewrite H2; [apply same_type_refl| |exact NE]. intros S. apply Q in S. congruence.
    + now apply X.
    + destruct (ED (l_default k) (l_default l)) as [Y|Y].
      * rewrite (H4 Y) in X. now apply R in X.
      * rewrite (H5 Y) in X. now apply Y.
    + destruct (ED (l_identity k) (l_identity l)) as [Y|Y].
      * rewrite (H6 Y) in X. now apply R in X.
      * rewrite (H7 Y) in X. now apply Y.
Qed.
Print Assumptions alteration_settles.

(** The column "id" gets another type and a default. *)
Example updates_changed_columns_example : forall dialect, In dialect [B "postgres"; B "mysql"] ->
  let got := typed dialect (B "INT") [] in let want := typed dialect (B "BIGINT") (B "1") in
  (exists mg, migrate (mk_mode false true false false) got want = Ok mg /\ length (m_cmds mg) = 1 /\ dialect_of (m_dialect mg) <> DSQLite) /\
  catalog (dialect_of dialect) (d_current got) got /\ catalog (dialect_of dialect) (d_current got) want /\ extensions_apart got (d_extensions want) /\
  exists k l, has_column got public (B "t") k /\ has_column want public (B "t") l /\ l_name k = l_name l /\
    differs (dialect_of dialect) k l.
Proof.
  intros dialect I. cbv zeta. split.
  { destruct I as [<-|[<-|[]]]; eexists; (split; [vm_compute; reflexivity|]); (split; [vm_compute; reflexivity|discriminate]). }
  split; [apply check_catalog_ok; destruct I as [<-|[<-|[]]]; vm_compute; reflexivity|].
  split; [apply check_catalog_ok; destruct I as [<-|[<-|[]]]; vm_compute; reflexivity|].
  split; [left; reflexivity|].
  assert (X : forall ty df, has_column (typed dialect ty df) public (B "t") (typed_column ty df)).
  { intros ty df. exists (typed_table ty df). split.
    - exists (ex_schema public [typed_table ty df] [] []). split; [now left|]. split; [reflexivity|]. split; [reflexivity|].
      split; [now left|reflexivity].
    - split; [reflexivity|]. split; [now left|reflexivity]. }
  exists (typed_column (B "INT") []), (typed_column (B "BIGINT") (B "1")). split; [apply X|]. split; [apply X|].
  split; [reflexivity|]. right. right. left. cbn [l_default typed_column]. split; [discriminate|reflexivity].
Qed.
Example mysql_modify_example :
  texts DMySQL (migrate (mk_mode false true false false) (typed (B "mysql") (B "INT") []) (typed (B "mysql") (B "BIGINT") (B "1")))
  = ["ALTER TABLE public.t
    MODIFY COLUMN id BIGINT DEFAULT 1
"%string].
Proof. vm_compute. reflexivity. Qed.
