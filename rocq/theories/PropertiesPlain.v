(** * Every statement of the grammar is read back: C86 and C87.  The grammar is in SpecPlain. *)
From Coq Require Import Lia.
From Verif Require Import GoBase QuoteModel SpecLex SpecIdent SpecSql SprintModel TokenModel EffectModel RenderModel BuildModel
  SpecClauses FieldFacts PropertiesClauses SpecField PropertiesField FieldModel ExprModel SpecExpr
  SpecReadSql ReadExpr ReadMore SpecPlain PlainPf PropertiesReadSql PropertiesReadInsert PropertiesReadMore.
Local Open Scope m_scope.

(** The string ToSQL returns for a statement of the grammar, however deeply
    queries and expressions are nested in it, is read back clause by clause. *)
Theorem plain_statements_read_back : forall (dname : bytes),
  (forall q, let d := to_sql_dialect dname (NSelect q) in
     plain_statement d (NSelect q) -> r_status (to_sql dname (NSelect q)) = SOk ->
     exists ts r, tokens d (r_query (to_sql dname (NSelect q))) = Some ts /\ read_select ts = Some r /\ select_found d q None r) /\
  (forall q, let d := to_sql_dialect dname (NUpdate q) in
     plain_statement d (NUpdate q) -> r_status (to_sql dname (NUpdate q)) = SOk ->
     exists ts r, tokens d (r_query (to_sql dname (NUpdate q))) = Some ts /\ read_update ts = Some r /\ update_found d q None r) /\
  (forall q, let d := to_sql_dialect dname (NDelete q) in
     plain_statement d (NDelete q) -> r_status (to_sql dname (NDelete q)) = SOk ->
     exists ts r, tokens d (r_query (to_sql dname (NDelete q))) = Some ts /\ read_delete ts = Some r /\ delete_found d q None r).
Proof.
  intros dname. split; [|split]; intros q d P O; destruct (proj2 (proj2 (proj2 (proj2 (proj2 (plain_follow d))))) _ P) as [_ R].
  - exact (proj1 (tosql_reads_back dname) q O (proj1 (R None))).
  - exact (proj1 (proj2 (tosql_reads_back dname)) q O (R None)).
  - exact (proj2 (proj2 (tosql_reads_back dname)) q O (R None)).
Qed.
Print Assumptions plain_statements_read_back.
Theorem plain_inserts_read_back : forall (dname : bytes) (q : insert_ node),
  let d := to_sql_dialect dname (NInsert q) in
  plain_statement d (NInsert q) -> r_status (to_sql dname (NInsert q)) = SOk ->
  exists ts r, tokens d (r_query (to_sql dname (NInsert q))) = Some ts /\ read_insert ts = Some r /\ insert_found d q None r.
Proof.
  intros dname q d P O. destruct (proj2 (proj2 (proj2 (proj2 (proj2 (plain_follow d))))) _ P) as [_ [M R]].
  exact (tosql_insert_reads_back dname q M O (R None)).
Qed.
Print Assumptions plain_inserts_read_back.
(** Expressions and conditions of the grammar can be followed wherever they stand. *)
Theorem plain_expressions_are_followed : forall (d : dialect),
  (forall n e x, plain_expr d n -> ascending x -> expr d e x n) /\
  (forall w c, plain_list d w -> ascending (c_excl c) -> fragment d separates (render d (NVPred w) c)) /\
  (forall n c, plain_statement d n -> fragment d (fun _ => false) (render d n c)).
Proof.
  intros d. destruct (plain_follow d) as (H1 & _ & H3 & _ & _ & H6). split; [|split].
  - intros n e x P A. now apply H1.
  - intros w c P A. now apply H3.
  - intros n c P. apply (H6 n P).
Qed.
Print Assumptions plain_expressions_are_followed.

(** *** A query of the grammar: that of PropertiesReadMore *)
Lemma plain_fld : forall d t n, (t = [] \/ plain_name d t) -> plain_name d n -> plain_expr d (fld t n).
Proof. intros d t n T N. unfold fld. apply E_column. split; [reflexivity|]. split; [reflexivity|]. split; [reflexivity|]. split; [exact N|exact T]. Qed.
Ltac pfld := apply plain_fld; [try (left; reflexivity); right; pname|pname].
Ltac pval := apply E_value; discriminate.
Lemma posts_plain : plain_statement DPostgres (NSelect inner_select).
Proof.
  apply S_select; cbn [inner_select sq_ctes sq_distinct_on sq_fields sq_from sq_joins sq_where sq_group sq_having sq_order map app].
  - intros c [].
  - intros c b [].
  - intros f [<-|[]]. pfld.
  - intros f [<-|[]]. left. reflexivity.
  - intros t [E|[]]. injection E as <-. apply T_table; [left; reflexivity|pname].
  - intros t [E|[]]. injection E as <-. left. reflexivity.
  - intros j [].
  - intros j [].
  - intros e p [].
  - intros NE. now contradiction NE.
  - intros NE. now contradiction NE.
Qed.
Lemma window_plain : plain_window DPostgres the_window.
Proof.
  apply W_window.
  - intros f [<-|[<-|[<-|[]]]]; pfld.
  - intros f [<-|[<-|[<-|[]]]]; reflexivity.
  - right. eexists. split; [vm_compute; reflexivity|]. split; [discriminate|vm_compute; reflexivity].
Qed.
Lemma case_plain : plain_expr DPostgres the_case.
Proof.
  apply E_case.
  - eapply (E_test _ _ []); [|left; reflexivity]. pfld.
  - pval.
  - intros b [<-|[]]. eapply (E_test _ _ []); [|right; left; reflexivity]. pfld.
  - intros b [<-|[]]. cbn [snd]. pval.
  - intros v E. injection E as <-. pval.
Qed.
Lemma functions_plain : plain_expr DPostgres (sum_over (fld (B "u") (B "n")) the_window) /\ plain_expr DPostgres count_all.
Proof.
  assert (F : plain_expr DPostgres (fld (B "u") (B "n"))) by pfld.
  split; (apply (E_function DPostgres _ _ the_window 0%Z _ F F window_plain)); cbn [functions_of In]; tauto.
Qed.
Lemma in_list_plain : plain_expr DPostgres in_list.
Proof. apply E_in_list; [pfld|repeat constructor|]. intros v [<-|[<-|[]]]; pval. Qed.
Lemma in_query_plain : plain_expr DPostgres in_query.
Proof. apply E_in_query; [|exact posts_plain]. apply E_row. intros v [<-|[<-|[]]]; [pfld|pval]. Qed.
Example more_select_plain : plain_statement DPostgres (NSelect more_select).
Proof.
  apply S_select; cbn [more_select sq_ctes sq_distinct_on sq_fields sq_from sq_joins sq_where sq_group sq_having sq_order map app].
  - intros c [].
  - intros c b [].
  - intros f [<-|[<-|[<-|[<-|[]]]]]; [exact (proj1 functions_plain)|exact case_plain|exact (proj2 functions_plain)|pfld].
  - intros f [<-|[<-|[<-|[]]]]; left; reflexivity.
  - intros t [E|[]]. injection E as <-. apply T_table; [left; reflexivity|pname].
  - intros t [E|[]]. injection E as <-. right. pname.
  - intros j [].
  - intros j [].
  - intros e p [].
  - intros _. apply L_many; [cbn; lia|]. intros p [<-|[<-|[<-|[]]]].
    + exact in_list_plain.
    + apply E_list. eapply L_nested; [reflexivity|]. apply L_many; [cbn; lia|]. intros p [<-|[<-|[]]]; [exact in_query_plain|].
      eapply E_exists; [exact posts_plain|]. right. left. reflexivity.
    + eapply (E_test _ _ (B "%a%")); [|right; right; left; reflexivity]. pfld.
  - intros NE. now contradiction NE.
Qed.
Example more_select_is_read :
  exists ts r, tokens DPostgres (r_query (to_sql [] (NSelect more_select))) = Some ts /\ read_select ts = Some r /\
    select_found DPostgres more_select None r.
Proof. exact (proj1 (plain_statements_read_back []) more_select more_select_plain (proj1 more_select_read)). Qed.

(** INSERT INTO users (id, name) SELECT id FROM posts ... ON CONFLICT (id) DO UPDATE SET name = $1 RETURNING id *)
Definition bare (n : bytes) : node := fld [] n.
Definition plain_insert : insert_ node :=
  mk_insert (B "postgres") None None [] false (Some (tbl (B "users") [])) [bare (B "id"); bare (B "name")] [] [] []
    (Some inner_select) [] [bare (B "id")] None false
    [(bare (B "name"), NRaw (GString (B "ON CONFLICT")))] (one in_list) [bare (B "id")].
Example plain_insert_ok : plain_statement DPostgres (NInsert plain_insert) /\
  r_status (to_sql [] (NInsert plain_insert)) = SOk /\
  r_query (to_sql [] (NInsert plain_insert)) =
    B "INSERT INTO users (id, name) SELECT id FROM posts ON CONFLICT (id) DO UPDATE SET name = $1 WHERE u.id IN ($2, $3) RETURNING id".
Proof.
  split; [|split; vm_compute; reflexivity].
  apply S_insert; cbn [plain_insert iq_mapper iq_ctes iq_into iq_columns iq_cfields iq_returning iq_rows iq_rowalias iq_colaliases iq_select
    iq_constraint iq_cpred iq_resolution iq_rpred map app].
  - reflexivity.
  - intros c [].
  - intros c b [].
  - intros t E. injection E as <-. split; [left; reflexivity|]. do 4 eexists. split; [reflexivity|]. split; [left; reflexivity|pname].
  - intros f [<-|[<-|[<-|[<-|[]]]]]; unfold bare; pfld.
  - intros f [<-|[]]. left. reflexivity.
  - intros r v [].
  - intros NE. now contradiction NE.
  - intros s E. injection E as <-. exact posts_plain.
  - intros NE. now contradiction NE.
  - discriminate.
  - discriminate.
  - intros a [<-|[]]. do 3 eexists. split; [reflexivity|]. split; [|split; reflexivity].
    split; [reflexivity|]. split; [reflexivity|]. split; [reflexivity|]. split; [pname|left; reflexivity].
  - intros a [<-|[]]. apply O_expr; [reflexivity|]. cbn [snd]. pval.
  - intros _. eapply L_one; [reflexivity|reflexivity|exact in_list_plain].
Qed.

(** UPDATE and DELETE: those of PropertiesClauses. *)
Lemma eq_plain : forall d a b, is_query a = false -> is_query b = false -> plain_expr d a -> plain_expr d b -> plain_expr d (p_eq a b).
Proof. intros d a b QA QB HA HB. apply (E_compare d a b p_eq); [now apply O_expr|now apply O_expr|now left]. Qed.
Example update_and_delete_plain : plain_statement DSQLite (NUpdate ex_update) /\ plain_statement DMySQL (NDelete ex_delete).
Proof.
  split.
  - apply S_update; cbn [ex_update uq_ctes uq_table uq_from uq_joins uq_where uq_order uq_returning map app].
    + intros c [].
    + intros c b [].
    + intros f [<-|[]]; pfld.
    + intros f [<-|[]]; left; reflexivity.
    + intros t [E|[E|[]]]; [|discriminate E]. injection E as <-. apply T_table; [left; reflexivity|pname].
    + intros t [E|[E|[]]]; [|discriminate E]. injection E as <-. left. reflexivity.
    + intros j [].
    + intros j [].
    + intros l a E. cbn in E. injection E as <-. intros [<-|[]]. do 3 eexists. split; [reflexivity|]. split; [|split; reflexivity].
      split; [reflexivity|]. split; [reflexivity|]. split; [reflexivity|]. split; [pname|right; pname].
    + intros l a E. cbn in E. injection E as <-. intros [<-|[]]. apply O_expr; [reflexivity|]. cbn [snd]. pval.
    + intros _. eapply L_one; [reflexivity|reflexivity|]. apply eq_plain; [reflexivity|reflexivity|pfld|pval].
  - apply S_delete; cbn [ex_delete dq_ctes dq_tables dq_using dq_joins dq_where dq_order dq_returning map app present andb].
    + intros c [].
    + intros c b [].
    + intros f [<-|[]]; pfld.
    + intros f [].
    + intros t [E|[E|[]]]; [discriminate E|]. injection E as <-. apply T_table; [left; reflexivity|pname].
    + intros t [E|[E|[]]]; [discriminate E|]. injection E as <-. left. reflexivity.
    + discriminate.
    + intros j [].
    + intros j [].
    + intros e p [].
    + intros _. eapply L_one; [reflexivity|reflexivity|]. apply eq_plain; [reflexivity|reflexivity|pfld|pval].
Qed.
