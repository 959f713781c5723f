(** * C63: the introspection queries ask for what the Filter says *)
From Verif Require Import GoBase QuoteModel SpecLex TemplateModel ScriptText SpecScript ScriptLex ScriptPf ScriptPf2.

(** Every query is sent; each of its WHERE clauses is one SQL can read, and a clause
    that selects objects admits exactly those that the filter keeps.  [s_places]
    pairs the clauses of a script with the columns they are about (SpecScript).
    Two scripts have a defect, see below; names are such as reach the database
    unchanged. *)
Theorem filter_selects s f :
  In s scripts -> plain_filter (s_dialect s) f ->
  (s_text s = postgres_columns -> f_without_tables f = []) ->
  (s_text s = mysql_constraints -> f_system f = false) ->
  forall dflt, exists q, query_text dflt (Some f) (s_text s) = Some q /\
    Forall2 (fun p w => proper w /\
                        match p with
                        | Some p => forall r, admits (s_dialect s) (columns_at (s_dialect s) p r) w = keeps (s_dialect s) (s_kind s) f r
                        | None => True
                        end)
      (s_places s) (wheres (lex (backslashes (s_dialect s)) q)).
Proof.
  intros Hs Pf H1 H2 dflt. apply (script_says s f Hs Pf). unfold excluded. apply orb_false_iff. split.
  - destruct (beqb (s_text s) postgres_columns) eqn:E; [|reflexivity]. apply GoBaseFacts.beqb_eq in E. now rewrite (H1 E).
  - destruct (beqb (s_text s) mysql_constraints) eqn:E; [|reflexivity]. apply GoBaseFacts.beqb_eq in E. now rewrite (H2 E).
Qed.
Print Assumptions filter_selects.

(** No name changes the structure of a query: two filters with the same flags and
    lists of the same lengths give the same tokens, except for the contents of
    string literals.  Any names; on MySQL without backslash. *)
Definition no_backslash (d : dialect) (f : filter) : Prop := d = DMySQL -> Forall (Forall (fun n => ~ In "\"%char n)) (lists_of f).
Definition all_scripts : list (dialect * bytes) := (DPostgres, postgres_extensions) :: map (fun s => (s_dialect s, s_text s)) scripts.
Lemma all_templates : forallb (fun p => template_check (fst p) (snd p)) all_scripts = true.
Proof. vm_compute. reflexivity. Qed.
Theorem names_stay_literals d s f g :
  In (d, s) all_scripts -> no_backslash d f -> no_backslash d g ->
  f_system f = f_system g -> f_comments f = f_comments g -> f_sort f = f_sort g ->
  Forall2 (fun a b => length a = length b) (lists_of f) (lists_of g) ->
  forall dflt, exists q q', query_text dflt (Some f) s = Some q /\ query_text dflt (Some g) s = Some q' /\
    Forall2 (fun a b => a = b \/ exists v w, a = TStr v /\ b = TStr w) (lex (backslashes d) q) (lex (backslashes d) q').
Proof.
  intros Hs Nf Ng A1 A2 A3 L dflt. pose proof all_templates as C. rewrite forallb_forall in C. specialize (C _ Hs). cbn [fst snd] in C.
  assert (Si : forall h, no_backslash d h -> filter_silent (backslashes d) h).
  { intros h Nh. unfold filter_silent, no_backslash in *. destruct d; cbn [backslashes]; try (rewrite Forall_forall; intros l _; rewrite Forall_forall; intros v _ X; discriminate X).
    specialize (Nh eq_refl). eapply Forall_impl; [|exact Nh]. intros l Hl. eapply Forall_impl; [|exact Hl]. intros v Hv _. exact Hv. }
  exact (template_like d s f g C (Si f Nf) (Si g Ng) (conj A1 (conj A2 A3)) L dflt).
Qed.
Print Assumptions names_stay_literals.

(** A nil filter is the default filter, and without one the empty Filter. *)
Theorem default_filter f s : query_text (Some f) None s = query_text None (Some f) s /\ query_text None None s = query_text None (Some no_filter) s.
Proof. split; reflexivity. Qed.
Print Assumptions default_filter.

(** ** Examples *)
Definition ex_filter : filter := mk_filter false false true [B "app"] [] [B "film"; B "o'hara"] [B "secret"] [] [].
Definition ex_script : script := mk_script DPostgres OTables postgres_tables [place "schemas.nspname" "tables.relname"].
Example ex_plain : In ex_script scripts /\ plain_filter DPostgres ex_filter /\
  keeps DPostgres OTables ex_filter (mk_row (B "app") (B "o'hara") []) = true /\
  keeps DPostgres OTables ex_filter (mk_row (B "app") (B "secret") []) = false /\
  keeps DPostgres OTables ex_filter (mk_row (B "public") (B "film") []) = false.
Proof.
  split; [unfold scripts, ex_script; cbn [In]; do 6 right; left; reflexivity|]. split; [|repeat split; reflexivity].
  unfold plain_filter, lists_of, ex_filter. cbn [f_with_schemas f_without_schemas f_with_tables f_without_tables f_with_functions f_without_functions].
  assert (X : forall n, collapse "'" n = n -> plain_name DPostgres n) by (intros n E; split; [now apply QuoteFacts.collapse_id_iff|discriminate]).
  repeat constructor; try (now apply QuoteFacts.collapse_id_iff); discriminate.
Qed.
Example ex_query : query_text None (Some ex_filter) postgres_tables = Some (B "SELECT
    schemas.nspname AS table_schema
    ,tables.relname AS table_name
FROM
    pg_class AS tables
    JOIN pg_namespace AS schemas ON schemas.oid = tables.relnamespace
WHERE
    tables.relkind = 'r'
    AND schemas.nspname <> 'information_schema' AND schemas.nspname NOT LIKE 'pg_%'
    AND schemas.nspname IN ('app')
    
    AND tables.relname IN ('film', 'o''hara')
    AND tables.relname NOT IN ('secret')
ORDER BY
    schemas.nspname
    ,tables.relname
;
").
Proof. vm_compute. reflexivity. Qed.

(** ** Refuted *)
Lemma computed {A} (o : option A) (P : A -> bool) : match o with Some q => P q | None => false end = true -> exists q, o = Some q /\ P q = true.
Proof. destruct o as [q|]; [intros H; now exists q|discriminate]. Qed.
(** WithoutTables, for columns on Postgres: the script names the wrong list.  The
    query is not SQL; with WithTables too it returns no columns at all. *)
Theorem columns_without_tables_refuted :
  (exists q, query_text None (Some (mk_filter false false false [] [] [] [B "film"] [] [])) postgres_columns = Some q /\
     Forall (fun w => ~ proper w) (wheres (lex false q))) /\
  (exists q w, let f := mk_filter false false false [] [] [B "actor"] [B "film"] [] [] in
     query_text None (Some f) postgres_columns = Some q /\ wheres (lex false q) = [w] /\
     keeps DPostgres OTables f (mk_row (B "app") (B "actor") []) = true /\
     forall r, admits DPostgres (columns_at DPostgres ([B "schemas.nspname"], B "tables.relname") r) w = false).
Proof.
  split.
  - destruct (computed (query_text None (Some (mk_filter false false false [] [] [] [B "film"] [] [])) postgres_columns)
      (fun q => forallb (fun w => existsb has_empty_in (conditions w)) (wheres (lex false q)))) as (q & Q & P); [vm_compute; reflexivity|].
    exists q. split; [exact Q|]. rewrite Forall_forall. rewrite forallb_forall in P. intros w Hw Pr. specialize (P w Hw). apply existsb_exists in P. destruct P as (c & Hc & P).
    unfold proper in Pr. rewrite Forall_forall in Pr. destruct (Pr c Hc) as (_ & E). congruence.
  - destruct (computed (query_text None (Some (mk_filter false false false [] [] [B "actor"] [B "film"] [] [])) postgres_columns)
      (fun q => match wheres (lex false q) with
                | [w] => existsb (toks_eqb (lex false (B "tables.relname") ++ in_cond [B "actor"])) (conditions w) &&
                         existsb (toks_eqb (lex false (B "tables.relname") ++ not_in_cond [B "actor"])) (conditions w)
                | _ => false
                end)) as (q & Q & P); [vm_compute; reflexivity|].
    destruct (wheres (lex false q)) as [|w [|]] eqn:W; try discriminate P. apply andb_true_iff in P. destruct P as (P1 & P2). apply existsb_exists in P1, P2. destruct P1 as (c1 & H1 & E1), P2 as (c2 & H2 & E2). apply toks_eqb_eq in E1, E2. subst c1 c2.
    exists q, w. cbv zeta. split; [exact Q|]. split; [exact W|]. split; [reflexivity|]. intros r.
    destruct (admits _ _ w) eqn:A; [|reflexivity]. unfold admits in A. rewrite forallb_forall in A. pose proof (A _ H1) as A1. pose proof (A _ H2) as A2.
    assert (F : finds (columns_at DPostgres ([B "schemas.nspname"], B "tables.relname") r) (lex false (B "tables.relname")) (r_name r)) by (left; split; reflexivity).
    rewrite (holds_finds _ _ _ _ _ _ F (says_in DPostgres (r_name r) [B "actor"] ltac:(discriminate))) in A1. rewrite (holds_finds _ _ _ _ _ _ F (says_not_in DPostgres (r_name r) [B "actor"] ltac:(discriminate))) in A2. rewrite A1 in A2. discriminate A2.
Qed.
Print Assumptions columns_without_tables_refuted.

(** IncludeSystemCatalogs, for constraints on MySQL: the query is not SQL (a
    condition is missing). *)
Theorem constraints_system_refuted :
  exists q, query_text None (Some (mk_filter true false false [] [] [B "film"] [] [] [])) mysql_constraints = Some q /\
    Exists (fun w => In [] (conditions w) /\ ~ proper w) (wheres (lex true q)).
Proof.
  destruct (computed (query_text None (Some (mk_filter true false false [] [] [B "film"] [] [] [])) mysql_constraints)
    (fun q => existsb (fun w => existsb (toks_eqb []) (conditions w)) (wheres (lex true q)))) as (q & Q & P); [vm_compute; reflexivity|].
  exists q. split; [exact Q|]. apply existsb_exists in P. destruct P as (w & Hw & P). apply existsb_exists in P. destruct P as (c & Hc & P). apply toks_eqb_eq in P. subst c.
  apply Exists_exists. exists w. split; [exact Hw|]. split; [exact Hc|]. intros Pr. unfold proper in Pr. rewrite Forall_forall in Pr. destruct (Pr [] Hc) as (E & _). congruence.
Qed.
Print Assumptions constraints_system_refuted.

(** What the scripts take for system objects includes objects of users. *)
Theorem user_objects_hidden_refuted :
  keeps DPostgres OTables no_filter (mk_row (B "pgapp") (B "film") []) = false /\
  keeps DSQLite OTables no_filter (mk_row [] (B "SQLiteStats") (B "CREATE TABLE SQLiteStats (id INT)")) = false /\
  keeps DSQLite OTables no_filter (mk_row [] (B "film") (B "CREATE TABLE 'film' (id INT)")) = false.
Proof. repeat split; reflexivity. Qed.
Print Assumptions user_objects_hidden_refuted.

(** On MySQL a backslash leaves the literal: a name can bring its own condition. *)
Theorem mysql_backslash_refuted :
  exists n1 n2 q, query_text None (Some (mk_filter false false false [] [] [n1; n2] [] [] [])) mysql_tables = Some q /\
    In (TWord (B "OR")) (lex true q) /\
    forall m1 m2, no_backslash DMySQL (mk_filter false false false [] [] [m1; m2] [] [] []) ->
      forall q', query_text None (Some (mk_filter false false false [] [] [m1; m2] [] [] [])) mysql_tables = Some q' -> ~ In (TWord (B "OR")) (lex true q').
Proof.
  exists (B "x\"), (B ") OR TRUE -- ").
  destruct (computed (query_text None (Some (mk_filter false false false [] [] [B "x\"; B ") OR TRUE -- "] [] [] [])) mysql_tables)
    (fun q => existsb (tok_eqb (TWord (B "OR"))) (lex true q))) as (q & Q & P); [vm_compute; reflexivity|].
  exists q. split; [exact Q|]. split.
  - apply existsb_exists in P. destruct P as (t & Ht & E). apply tok_eqb_eq in E. now subst t.
  - intros m1 m2 Nb q' Q' I.
    destruct (names_stay_literals DMySQL mysql_tables (mk_filter false false false [] [] [m1; m2] [] [] []) (mk_filter false false false [] [] [B "a"; B "b"] [] [] [])) with (dflt := @None filter) as (q1 & q2 & Q1 & Q2 & L);
      [|exact Nb|intros _; unfold lists_of; cbn [f_with_schemas f_without_schemas f_with_tables f_without_tables f_with_functions f_without_functions]; repeat constructor; cbn; intuition discriminate|reflexivity|reflexivity|reflexivity|repeat constructor|].
    + unfold all_scripts. right. unfold scripts. cbn [map s_dialect s_text In]. do 13 right. left. reflexivity.
    + rewrite Q' in Q1. assert (q1 = q') by congruence. subst q1. cbn [backslashes] in L.
      assert (X : forall a b, Forall2 (fun x y => x = y \/ exists v w, x = TStr v /\ y = TStr w) a b -> In (TWord (B "OR")) a -> In (TWord (B "OR")) b).
      { clear. intros a b H. induction H as [|x y a b Hxy _ IH]; [auto|]. intros [->|Hi]; [|right; now apply IH]. destruct Hxy as [<-|(v & w & E & _)]; [now left|discriminate E]. }
      specialize (X _ _ L I).
      destruct (computed (query_text None (Some (mk_filter false false false [] [] [B "a"; B "b"] [] [] [])) mysql_tables)
        (fun q => negb (existsb (tok_eqb (TWord (B "OR"))) (lex true q)))) as (q3 & Q3 & P3); [vm_compute; reflexivity|].
      assert (q3 = q2) by congruence. subst q3. apply negb_true_iff in P3. rewrite <- not_true_iff_false in P3. apply P3. apply existsb_exists. exists (TWord (B "OR")). split; [exact X|]. apply tok_eqb_refl.
Qed.
Print Assumptions mysql_backslash_refuted.
